(** Model of callback dispatch in the host: the table of handlers of
    CallbackDispatcher (src/libsandbox.cc), CallbackHandler::invoke
    (include/process_sandbox/callbacks.h) and the reply.  What the handlers
    do is in HostCallsModel.v; here a handler is an arbitrary function.
    No proofs in this file. *)
From Coq Require Import String Ascii List ZArith Bool.
From Verif Require Import Base RegionModel.
Import ListNotations.
Open Scope Z_scope.

(** ENOSYS on the modelled platform (Linux: 38). *)
Definition ENOSYS : Z := 38.

(** CallbackHandlerBase::Result, callbacks.h 75-101.  The default and the
    handle-only constructor leave integer = -ENOSYS. *)
Record result := Result { r_int : Z; r_fd : option Z }.
Definition no_result : result := Result (- ENOSYS) None.

(** An entry of the vector of handlers: an object of the base class
    (callbacks.h 103-119) or a CallbackHandler<T, takes> whose callable is
    called [tag] here and whose sizeof(T) is [size] (callbacks.h 132-182). *)
Inductive slot := SBase | SFn (tag size : Z) (takes : bool).

(** The dispatcher: handlers (src/libsandbox.cc 316) and next_callback_number
    (686).  Simplification: next_callback_number is an int in the code; the
    model does not wrap it at 2^31. *)
Record dispatcher := Disp { d_handlers : list slot; d_next : Z }.

Fixpoint set_nth {A} (i : nat) (v : A) (l : list A) : list A :=
  match l, i with
  | [], _ => []
  | _ :: r, O => v :: r
  | x :: r, S k => x :: set_nth k v r
  end.

(** enlarge_handlers, src/libsandbox.cc 612-623. *)
Definition enlarge_handlers (l : list slot) (size : Z) : list slot :=
  if Z.of_nat (List.length l) <=? size
  then l ++ repeat SBase (Z.to_nat size - List.length l)
  else l.

(** register_handler, src/libsandbox.cc 631-656. *)
Definition register_handler (d : dispatcher) (k : Z) (s : slot) : dispatcher :=
  Disp (set_nth (Z.to_nat k) s (enlarge_handlers (d_handlers d) (k + 1))) (d_next d).

(** register_callback, src/libsandbox.cc 691-697. *)
Definition register_callback (d : dispatcher) (s : slot) : Z * dispatcher :=
  let n := d_next d in
  (n, Disp (set_nth (Z.to_nat n) s (enlarge_handlers (d_handlers d) (n + 1))) (n + 1)).

(** CallbackKind, include/process_sandbox/callback_numbers.h 22-78. *)
Definition K_Open : Z := 0.
Definition K_Stat : Z := 1.
Definition K_Access : Z := 2.
Definition K_OpenAt : Z := 3.
Definition K_Bind : Z := 4.
Definition K_Connect : Z := 5.
Definition K_GetAddrInfo : Z := 6.
Definition FirstUserFunction : Z := 7.

(** The tags of the built-in handlers are their kinds; [bsz k] is the size of
    the argument tuple of kind k. *)
Definition builtin (bsz : Z -> Z) (k : Z) (takes : bool) : slot := SFn k (bsz k) takes.

(** The constructor, src/libsandbox.cc 703-738, handlers part, in the order
    of the code.  The overload of register_handler chosen for a handler with a
    third parameter passes the descriptor on. *)
Definition new_dispatcher (bsz : Z -> Z) : dispatcher :=
  let d := Disp [] FirstUserFunction in
  let d := register_handler d K_Open (builtin bsz K_Open false) in
  let d := register_handler d K_Stat (builtin bsz K_Stat false) in
  let d := register_handler d K_Access (builtin bsz K_Access false) in
  let d := register_handler d K_OpenAt (builtin bsz K_OpenAt true) in
  let d := register_handler d K_Bind (builtin bsz K_Bind true) in
  let d := register_handler d K_GetAddrInfo (builtin bsz K_GetAddrInfo false) in
  register_handler d K_Connect (builtin bsz K_Connect true).

(** CallbackRequest, callbacks.h 28-49. *)
Record crequest := CRequest { cr_kind : Z; cr_size : Z; cr_data : Z }.

(** What the host observably does. *)
Inductive action :=
| ALoad (a : Z)                                     (* one byte read from sandbox memory *)
| AInvoke (tag : Z) (args : list ascii) (fd : option Z)  (* the callable runs *)
| AClose (fd : Z)                                   (* a received or returned descriptor is closed *)
| AReply (i : Z) (fd : option Z)                    (* a message on the socket *)
| ATerminate.                                       (* the child is killed *)

Definition close_opt (fd : option Z) : list action :=
  match fd with Some f => [AClose f] | None => [] end.

(** The callables, as arbitrary functions of what they are given. *)
Definition callables := Z -> list ascii -> option Z -> result.

(** CallbackHandlerBase::invoke, callbacks.h 107-111, and
    CallbackHandler::invoke, 146-173.  [rd] are the loads from shared memory
    (see RegionModel.v).  The parameter `h` is destroyed on return unless it
    was moved into the callable, which then owns it. *)
Definition invoke (h : heap) (fn : callables) (rd : reads) (s : slot) (rq : crequest)
  (fd : option Z) : result * list action :=
  match s with
  | SBase => (no_result, close_opt fd)
  | SFn tag size takes =>
    if negb (cr_size rq =? size) then (no_result, close_opt fd)
    else if negb (contains h (cr_data rq) (cr_size rq)) then (no_result, close_opt fd)
    else
      let '(bytes, _, tr) := memcpy_out rd 0 (cr_data rq) (Z.to_nat size) in
      if takes
      then (fn tag bytes fd, map ALoad tr ++ [AInvoke tag bytes fd])
      else (fn tag bytes None, map ALoad tr ++ [AInvoke tag bytes None] ++ close_opt fd)
  end.

(** The lookup in CallbackDispatcher::handle, src/libsandbox.cc 670-676: the
    result, what happened, and the descriptor still held by the local variable. *)
Definition select_handler (d : dispatcher) (h : heap) (fn : callables) (rd : reads)
  (rq : crequest) (in_fd : option Z) : result * list action * option Z :=
  if cr_kind rq <? Z.of_nat (List.length (d_handlers d))
  then match nth_error (d_handlers d) (Z.to_nat (cr_kind rq)) with
       | Some s => let '(r, a) := invoke h fn rd s rq in_fd in (r, a, None)
       | None => (no_result, [], in_fd)     (* not reachable: bound checked *)
       end
  else (no_result, [], in_fd).

(** CallbackDispatcher::handle, src/libsandbox.cc 661-681.  [msg] is what
    nonblocking_receive yields, None when it fails; [send_ok] whether the
    reply can be sent.  Descriptors still held by local variables are closed
    when the function returns. *)
Definition handle (d : dispatcher) (h : heap) (fn : callables) (rd : reads)
  (msg : option (crequest * option Z)) (send_ok : bool) : list action :=
  match msg with
  | None => []
  | Some (rq, in_fd) =>
    let '(ret, acts, rest) := select_handler d h fn rd rq in_fd in
    acts
    ++ (if send_ok then [AReply (r_int ret) (r_fd ret)] else [ATerminate])
    ++ close_opt (r_fd ret) ++ close_opt rest
  end.

(** A host program's registrations after construction, with the numbers it
    gets back. *)
Fixpoint register_all (d : dispatcher) (ss : list slot) : list Z * dispatcher :=
  match ss with
  | [] => ([], d)
  | s :: r =>
    let '(n, d1) := register_callback d s in
    let '(ns, d2) := register_all d1 r in
    (n :: ns, d2)
  end.
