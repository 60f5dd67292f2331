(** Model of everything the host does for one callback request of a sandbox:
    CallbackDispatcher::handle (src/libsandbox.cc 661-681, DispatchModel.v), then
    the built-in handler chosen (411-607, HostCallsModel.v), with the memory it
    loads and stores.  Linux.  Handlers registered by the host program are not
    included.  No proofs in this file. *)
From Coq Require Import String Ascii List ZArith Bool.
From Verif Require Import Base PathModel FileTreeModel RegionModel DispatchModel HostCallsModel ChildCallsModel.
Import ListNotations.
Open Scope Z_scope.

(** Operations asked of the system; sandbox-supplied addresses written (address,
    length), by the host or by the kernel for it; sandbox-supplied addresses
    read; replies sent. *)
Record effects := Effects {
  e_ops : list kop; e_writes : list (Z * Z); e_reads : list (Z * Z); e_replies : list (Z * option Z) }.
Definition no_effects : effects := Effects [] [] [] [].
Definition and_then (a b : effects) : effects :=
  Effects (e_ops a ++ e_ops b) (e_writes a ++ e_writes b) (e_reads a ++ e_reads b) (e_replies a ++ e_replies b).

(** fstat and fstatat write a struct stat. *)
Definition stat_writes (ops : list kop) : list (Z * Z) :=
  flat_map (fun op => match op with
    | KFstat _ buf | KFstatat _ _ buf _ => [(buf, sizeof_stat)]
    | _ => [] end) ops.
Definition store_range (s : store) : Z * Z :=
  match s with
  | SCell a _ => (a, sizeof_addrinfo) | SAddr a _ => (a + 24, 8) | SNext a _ => (a + 40, 8)
  | SByte a _ => (a, 1) | SPtr a _ => (a, sizeof_ptr)
  end.

(** The loads of get_path, src/libsandbox.cc 360-363. *)
Definition byte_loads (l : list Z) : list (Z * Z) := map (fun a => (a, 1)) l.
Definition path_loads (h : heap) (rd : reads) (p : Z) : list (Z * Z) :=
  match strdup_out h rd true p with Ret r => byte_loads (dup_trace r) | _ => [] end.
(** The loads of handle_bind_or_connect, 453-477. *)
Definition addr_loads (h : heap) (rd : reads) (addr addrlen : Z) (in_fd : option Z) : list (Z * Z) :=
  let fd := match in_fd with Some f => f | None => -1 end in
  if (fd <? 0) || (max_sockaddr <? addrlen) || negb (contains h addr addrlen) then []
  else let '(_, _, tr) := memcpy_out rd 0 addr (Z.to_nat addrlen) in byte_loads tr.
(** The loads of handle_getaddrinfo, 485-523: four ints of the hints, two
    strings. *)
Definition gai_loads (h : heap) (rd1 rd2 : reads) (in_host in_service in_hints in_res : Z) : list (Z * Z) :=
  if negb (contains h in_res sizeof_ptr) then []
  else if negb (in_hints =? 0) && negb (contains h in_hints sizeof_addrinfo) then []
  else (if in_hints =? 0 then [] else [(in_hints, 4); (in_hints + 4, 4); (in_hints + 8, 4); (in_hints + 12, 4)])
       ++ path_loads h rd1 in_host ++ path_loads h rd2 in_service.

Section HOST.
Variables (k : kernel) (vfs : FileTreeModel.dir) (np : netpolicy) (h : heap).
(** The sandbox's memory as read by the handler; getaddrinfo's two strings and
    hints; the resolver; the allocator of the sandbox. *)
Variables (rd1 rd2 : reads) (hd : Z -> Z) (resolver : list kop -> list addrinfo) (alloc : Z -> Z).

(** The built-in handlers, src/libsandbox.cc 411-607, registered at 719-737: the
    result, and the effects.  A tuple of the wrong size does not get here
    (callbacks.h 150-153). *)
Definition run_builtin (tag : Z) (bytes : list ascii) (fd : option Z) : outcome (result * effects) :=
  match decode (tuple_widths tag) bytes with
  | Some [a; b] =>
    if tag =? K_Stat then
      obind (handle_stat k vfs h rd1 true sizeof_stat a b []) (fun '(r, ops) =>
        Ret (r, Effects ops (stat_writes ops) (path_loads h rd1 a) []))
    else if tag =? K_Access then
      obind (handle_access k vfs h rd1 true a (to_int32 b) []) (fun '(r, ops) =>
        Ret (r, Effects ops [] (path_loads h rd1 a) []))
    else Ret (no_result, no_effects)
  | Some [a; b; c] =>
    if tag =? K_Open then
      obind (handle_open k vfs h rd1 true a (to_int32 b) c []) (fun '(r, ops) =>
        Ret (r, Effects ops [] (path_loads h rd1 a) []))
    else if tag =? K_Bind then
      let '(r, ops) := handle_bind_or_connect k np h rd1 NBind b c fd [] in
      Ret (r, Effects ops [] (addr_loads h rd1 b c fd) [])
    else if tag =? K_Connect then
      let '(r, ops) := handle_bind_or_connect k np h rd1 NConnect b c fd [] in
      Ret (r, Effects ops [] (addr_loads h rd1 b c fd) [])
    else Ret (no_result, no_effects)
  | Some [a; b; c; d] =>
    if tag =? K_OpenAt then
      obind (handle_openat k h rd1 true b (to_int32 c) d fd []) (fun '(r, ops) =>
        Ret (r, Effects ops [] (path_loads h rd1 b) []))
    else if tag =? K_GetAddrInfo then
      obind (handle_getaddrinfo k np h rd1 rd2 true hd resolver alloc a b c d []) (fun g =>
        Ret (g_reply g, Effects (g_log g) (map store_range (g_stores g)) (gai_loads h rd1 rd2 a b c d) []))
    else Ret (no_result, no_effects)
  | _ => Ret (no_result, no_effects)
  end.

Definition builtin_result (tag : Z) (bytes : list ascii) (fd : option Z) : result :=
  match run_builtin tag bytes fd with Ret (r, _) => r | _ => no_result end.

(** What each action of CallbackDispatcher::handle amounts to. *)
Definition effects_of (act : action) : outcome effects :=
  match act with
  | ALoad a => Ret (Effects [] [] [(a, 1)] [])
  | AInvoke tag bytes given => obind (run_builtin tag bytes given) (fun '(_, e) => Ret e)
  | AClose f => Ret (Effects [KClose f] [] [] [])
  | AReply i f => Ret (Effects [] [] [] [(i, f)])
  | ATerminate => Ret no_effects
  end.
Fixpoint all_effects (acts : list action) : outcome effects :=
  match acts with
  | [] => Ret no_effects
  | a :: r => obind (effects_of a) (fun e => obind (all_effects r) (fun e' => Ret (and_then e e')))
  end.

(** CallbackDispatcher::handle, 661-681: [rd0] are its loads of the argument
    tuple. *)
Definition serve (rd0 : reads) (rq : crequest) (fd : option Z) : outcome effects :=
  all_effects (DispatchModel.handle (new_dispatcher tuple_size) h builtin_result rd0 (Some (rq, fd)) true).
End HOST.
