(** Model of one host process over a whole history: what the program does with
    the descriptors it exports (OwnModel.v) and every request it serves for the
    sandbox (EffectsModel.v), on one kernel descriptor table.  Linux.  Handlers
    registered by the host program are in UserModel.v; what the program's own
    network functions do with descriptors is not included.  No proofs in this
    file. *)
From Coq Require Import String Ascii List ZArith Bool.
From Verif Require Import Base PathModel FileTreeModel RegionModel DispatchModel HostCallsModel ChildCallsModel EffectsModel
  HandleModel OwnModel.
Import ListNotations.
Local Open Scope Z_scope.

(** One run of CallbackDispatcher::handle (src/libsandbox.cc 661-681).  [q_msg]:
    what nonblocking_receive yields, with the number the kernel gave to the
    received descriptor; [q_lost]: the numbers of descriptors that came but that
    receive_msg drops (several in one message, or a short message; see SockProps);
    [q_sends]: whether the reply can be sent.  The rest are the kernel's answers
    and what the sandbox's memory holds when it is read, as in EffectsModel. *)
Record request := Request {
  q_msg : option (crequest * option Z); q_lost : list Z; q_sends : bool; q_kernel : kernel; q_args : reads; q_mem1 : reads; q_mem2 : reads;
  q_hints : Z -> Z; q_resolver : list kop -> list addrinfo; q_alloc : Z -> Z }.

(** The descriptor an operation is about. *)
Definition subject (o : kop) : option Z :=
  match o with
  | KOpenat2 f _ _ _ _ | KDup f | KFaccessat2 f _ _ _ | KFstat f _ | KFstatat f _ _ _ | KClose f => Some f
  | KNet _ _ (NAddr f _ _) => Some f
  | KNet _ _ (NNames _ _ _) => None
  | KFb (FbOpenat f _ _ _) | KFb (FbFaccessat f _ _ _) | KFb (FbFstatat f _ _ _) => Some f
  end.

(** What is seen of a request.  [Asked o on new]: the operation [o], what the
    descriptor it is about refers to at that moment, and what it opened.
    [Replied i fd]: the reply, with what the descriptor in it refers to. *)
Inductive seen :=
| Asked (o : kop) (on new : option nat)
| Replied (i : Z) (fd : option (option nat))
| Killed.

(** One operation on the descriptor table.  close(2) is always that of a Handle
    (platform.h 65-72, 136-139): safe_syscalls-linux.h 109 and 138 own the
    descriptor they open, and the callback code passes Handles. *)
Definition asks (debug : bool) (r : Z * Z) (o : kop) (s : state) : outcome (state * seen) :=
  let on := match subject o with Some f => lookup f (kern s) | None => None end in
  match o with
  | KOpenat2 _ _ _ _ _ | KDup _ =>
      if 0 <=? fst r
      then Ret (St (tree s) (kern s ++ [(fst r, next s)]) (S (next s)) (closes s), Asked o on (Some (next s)))
      else Ret (s, Asked o on None)
  | KClose f =>
      match destroy debug [f] (kern s) (closes s) with
      | Some (k, c) => Ret (St (tree s) k (next s) c, Asked o on None)
      | None => Aborts
      end
  | _ => Ret (s, Asked o on None)
  end.
Fixpoint perform (debug : bool) (k : kernel) (before ops : list kop) (s : state) : outcome (state * list seen) :=
  match ops with
  | [] => Ret (s, [])
  | o :: rest =>
      obind (asks debug (k before o) o s) (fun '(s1, e) =>
      obind (perform debug k (before ++ [o]) rest s1) (fun '(s2, es) => Ret (s2, e :: es)))
  end.

Section HOST.
Variables (debug : bool) (h : heap).

(** The actions of CallbackDispatcher::handle, one after the other.  [before]: the
    operations asked so far. *)
Fixpoint act (t : FileTreeModel.dir) (np : netpolicy) (q : request) (before : list kop) (l : list action) (s : state)
  : outcome (state * list seen) :=
  match l with
  | [] => Ret (s, [])
  | a :: r =>
      obind (match a with
             | ALoad _ => Ret (s, [], before)
             | AInvoke tag bytes given =>
                 obind (run_builtin (q_kernel q) t np h (q_mem1 q) (q_mem2 q) (q_hints q) (q_resolver q) (q_alloc q) tag bytes given)
                   (fun '(_, e) => obind (perform debug (q_kernel q) before (e_ops e) s) (fun '(s1, es) => Ret (s1, es, before ++ e_ops e)))
             | AClose f => obind (asks debug (q_kernel q before (KClose f)) (KClose f) s)
                             (fun '(s1, e) => Ret (s1, [e], before ++ [KClose f]))
             | AReply i f => Ret (s, [Replied i (option_map (fun n => lookup n (kern s)) f)], before)
             | ATerminate => Ret (s, [Killed], before)
             end)
        (fun '(s1, es, before1) => obind (act t np q before1 r s1) (fun '(s2, es2) => Ret (s2, es ++ es2)))
  end.

(** The descriptors that come with a message are opened by the kernel as part of
    recvmsg (include/process_sandbox/platform/socketpair_posix.h 76-121, 183-203). *)
Definition arrive (n : Z) (s : state) : state :=
  St (tree s) (kern s ++ [(n, next s)]) (S (next s)) (closes s).
Definition receive (q : request) (s : state) : state :=
  let s := fold_left (fun s n => arrive n s) (q_lost q) s in
  match q_msg q with
  | Some (_, Some n) => arrive n s
  | _ => s
  end.

(** The state: exports and descriptors; the network policy of the library. *)
Record gate := Gate { own : state; net : netpolicy }.
Definition new_gate : gate := Gate init new_netpolicy.

(** What happens: the program opens, exports, closes; it makes a network setting
    (netpolicy.h 175-204); the library serves a request. *)
Inductive gop := Host (o : op) | Setting (o : netop) (p : policy) | Serve (q : request).
Inductive gresult := Did (r : OwnModel.result) | Noted | Served (es : list seen) | Broke.

Definition gstep (o : gop) (g : gate) : gate * gresult :=
  match o with
  | Host o => let '(s, r) := step debug o (own g) in (Gate s (net g), Did r)
  | Setting o p => (Gate (own g) (set_policy (net g) o p), Noted)
  | Serve q =>
      match tree (own g) with
      | None => (g, Noted)                        (* no library, no requests *)
      | Some t =>
          match act t (net g) q []
                  (DispatchModel.handle (new_dispatcher tuple_size) h
                     (builtin_result (q_kernel q) t (net g) h (q_mem1 q) (q_mem2 q) (q_hints q) (q_resolver q) (q_alloc q))
                     (q_args q) (q_msg q) (q_sends q))
                  (receive q (own g)) with
          | Ret (s, es) => (Gate s (net g), Served es)
          | _ => (g, Broke)
          end
      end
  end.
End HOST.
