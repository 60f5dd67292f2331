(** Model of the socket wrapper (include/process_sandbox/platform/
    socketpair_posix.h) over the kernel's sequenced-packet sockets
    (socketpair(AF_UNIX, SOCK_SEQPACKET), 234-242), one direction.  No proofs in
    this file. *)
From Coq Require Import List ZArith Bool Arith.
Import ListNotations.
Open Scope Z_scope.

(** A message in flight: its bytes and the files attached with SCM_RIGHTS.  The
    sender may be anyone, so there can be any number of them. *)
Record msg := Msg { bytes : list Z; files : list nat }.
(** The receiving process's descriptors: numbers and files. *)
Definition table := list (Z * nat).
Record chan := Chan { queue : list msg; hung_up : bool }.

(** *** Kernel *)

(** sendmsg(2) with MSG_NOSIGNAL.  [answers] are the failures before it settles;
    then the packet is taken whole, or refused (full, peer gone, bad
    descriptor). *)
Inductive attempt := Interrupted | Refused | Accepted.
Definition sendmsg (a : attempt) (m : msg) (c : chan) : chan * Z :=
  match a with
  | Accepted => (Chan (queue c ++ [m]) (hung_up c), Z.of_nat (length (bytes m)))
  | _ => (c, -1)
  end.
(** recvmsg(2).  [want] bytes of space; [slots] is how many descriptors the
    control buffer holds ([None]: no control buffer); [nums] are the numbers the
    kernel gives to received descriptors.  What the packet has too much is
    dropped, bytes and descriptors alike. *)
Inductive kgot :=
| KBlocks
| KFails                                                        (* EAGAIN *)
| KGot (n : Z) (data : list Z) (fds : list (Z * nat)).
Definition recvmsg (block : bool) (want : nat) (slots : option nat) (nums : list Z) (c : chan) : chan * kgot :=
  match queue c with
  | [] => (c, if hung_up c then KGot 0 [] [] else if block then KBlocks else KFails)
  | m :: r =>
    let data := firstn want (bytes m) in
    let fds := match slots with None => [] | Some k => combine nums (firstn k (files m)) end in
    (Chan r (hung_up c), KGot (Z.of_nat (length data)) data fds)
  end.

(** *** Socket *)

(** How many descriptors fit CMSG_SPACE(sizeof(int)) (84): the 4 bytes are
    rounded up to 8. *)
Definition ctrl_slots : nat := 2.
(** static_cast<size_t>(int) *)
Definition to_size (z : Z) : Z := if z <? 0 then z + 2 ^ 64 else z.

(** send_msg, 30-68: retried while interrupted.  [file] is the file behind
    send_fd ([None]: no descriptor). *)
Fixpoint send_msg (atts : list attempt) (data : list Z) (file : option nat) (c : chan) : chan * bool :=
  let m := Msg data (match file with Some f => [f] | None => [] end) in
  match atts with
  | Interrupted :: r => send_msg r data file c
  | a :: _ => let (c, ret) := sendmsg a m c in (c, to_size ret =? Z.of_nat (length data))
  | [] => let (c, ret) := sendmsg Refused m c in (c, to_size ret =? Z.of_nat (length data))
  end.

(** What a receive does: nothing yet, or its result, the caller's buffer, the
    value left in *recv_fd. *)
Inductive received := RBlocks | RDone (ok : bool) (buf : list Z) (recv_fd : Z).

(** receive_msg, 76-121.  [intr] interruptions come first (105-108); [buf] is
    the buffer's old content; the descriptors the kernel installed are added to
    [t]. *)
Definition overlay (data buf : list Z) : list Z := data ++ skipn (length data) buf.
Fixpoint receive_msg (block : bool) (with_fd : bool) (intr : nat) (nums : list Z) (buf : list Z) (c : chan) (t : table)
    : chan * table * received :=
  match intr with
  | S k => receive_msg block with_fd k nums buf c t
  | O =>
    match recvmsg block (length buf) (if with_fd then Some ctrl_slots else None) nums c with
    | (c, KBlocks) => (c, t, RBlocks)
    | (c, KFails) => (c, t, RDone (to_size (-1) =? Z.of_nat (length buf)) buf (-1))
    | (c, KGot n data fds) =>
      let fd := match fds with [(x, _)] => x | _ => -1 end in    (* 109-119: cmsg_len = CMSG_LEN(sizeof(int)) *)
      (c, t ++ fds, RDone (to_size n =? Z.of_nat (length buf)) (overlay data buf) fd)
    end
  end.

(** Handle::reset (platform.h 66-73) on the caller's Handle. *)
Fixpoint unopen (n : Z) (t : table) : table :=
  match t with [] => [] | (m, f) :: r => if m =? n then r else (m, f) :: unopen n r end.
Definition reset (old : Z) (t : table) : table := if 0 <=? old then unopen old t else t.

(** receive, 183-203; [h] is the Handle passed, if any, by its current number.
    Returns the Handle's new number too. *)
Inductive outcome := OBlocks | ODone (ok : bool) (buf : list Z) (h : option Z).
Definition receive (block : bool) (h : option Z) (intr : nat) (nums : list Z) (buf : list Z) (c : chan) (t : table)
    : chan * table * outcome :=
  match receive_msg block (match h with Some _ => true | None => false end) intr nums buf c t with
  | (c, t, RBlocks) => (c, t, OBlocks)
  | (c, t, RDone ok buf fd) =>
    match h with
    | Some old => if ok then (c, reset old t, ODone true buf (Some fd)) else (c, t, ODone false buf (Some old))
    | None => (c, t, ODone ok buf None)
    end
  end.

(** *** Histories of one direction *)

Inductive op :=
| Send (atts : list attempt) (data : list Z) (file : option nat)   (* through the wrapper *)
| Inject (m : msg)                                                (* by a hostile peer, directly *)
| HangUp
| Receive (block : bool) (h : option Z) (intr : nat) (nums : list Z) (buf : list Z).
Inductive event := Sent (ok : bool) | Got (o : outcome) | Quiet.
Record state := St { ch : chan; tab : table }.
Definition init (t : table) : state := St (Chan [] false) t.
Definition step (o : op) (s : state) : state * event :=
  match o with
  | Send atts data file => let (c, ok) := send_msg atts data file (ch s) in (St c (tab s), Sent ok)
  | Inject m => (St (Chan (queue (ch s) ++ [m]) (hung_up (ch s))) (tab s), Quiet)
  | HangUp => (St (Chan (queue (ch s)) true) (tab s), Quiet)
  | Receive block h intr nums buf =>
    let '(c, t, o) := receive block h intr nums buf (ch s) (tab s) in (St c t, Got o)
  end.
(** What the kernel guarantees about the numbers it gives to received
    descriptors; and a Handle that is passed owns an open number or none. *)
Definition possible (o : op) (s : state) : Prop :=
  match o with
  | Receive _ h _ nums _ =>
    (NoDup nums /\ match h with Some old => old < 0 \/ In old (map fst (tab s)) | None => True end)
    /\ Forall (fun n => 0 <= n /\ ~ In n (map fst (tab s))) nums
  | _ => True
  end.
(** A history, with the state after each operation. *)
Inductive runs (t : table) : list (op * event * state) -> state -> Prop :=
| runs_0 : runs t [] (init t)
| runs_snoc tr s o s' e : runs t tr s -> possible o s -> step o s = (s', e) -> runs t (tr ++ [(o, e, s')]) s'.
