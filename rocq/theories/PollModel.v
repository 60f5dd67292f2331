(** Model of the pollers (include/process_sandbox/platform/poller_epoll.h and
    poller_kqueue.h) over the kernel's sockets and interest lists.  No proofs in
    this file. *)
From Coq Require Import List ZArith Bool.
Import ListNotations.
Open Scope Z_scope.

(** *** Kernel *)

(** The host's end of a connected socket: who holds the other end, the messages
    waiting to be received, and whether the other end is closed. *)
Record sock (P : Type) := Sock { owner : nat; inq : list P; hup : bool }.
Arguments Sock {P}. Arguments owner {P}. Arguments inq {P}. Arguments hup {P}.
(** The host's open sockets by descriptor number, and the interest list of the
    poller.  Simplification: no socket is open under two numbers in the host, so
    closing a number takes it off the interest list (epoll(7), Q6; kqueue(2)). *)
Record kern (P : Type) := Kern { socks : list (Z * sock P); reg : list Z }.
Arguments Kern {P}. Arguments socks {P}. Arguments reg {P}.

Fixpoint find {A} (fd : Z) (l : list (Z * A)) : option A :=
  match l with [] => None | (n, a) :: r => if n =? fd then Some a else find fd r end.
Fixpoint del {A} (fd : Z) (l : list (Z * A)) : list (Z * A) :=
  match l with [] => [] | (n, a) :: r => if n =? fd then r else (n, a) :: del fd r end.
Fixpoint alter {A} (fd : Z) (f : A -> A) (l : list (Z * A)) : list (Z * A) :=
  match l with [] => [] | (n, a) :: r => if n =? fd then (n, f a) :: r else (n, a) :: alter fd f r end.
Definition unlist (fd : Z) (l : list Z) : list Z := filter (fun n => negb (n =? fd)) l.
Definition member (fd : Z) (l : list Z) : bool := existsb (fun n => n =? fd) l.

(** socketpair(2), close(2), and what the other end does. *)
Definition k_open {P} (fd : Z) (who : nat) (k : kern P) : kern P := Kern ((fd, Sock who [] false) :: socks k) (reg k).
Definition k_close {P} (fd : Z) (k : kern P) : kern P := Kern (del fd (socks k)) (unlist fd (reg k)).
Definition k_data {P} (fd : Z) (p : P) (k : kern P) : kern P :=
  Kern (alter fd (fun s => if hup s then s else Sock (owner s) (inq s ++ [p]) false) (socks k)) (reg k).
Definition k_hang {P} (fd : Z) (k : kern P) : kern P :=
  Kern (alter fd (fun s => Sock (owner s) (inq s) true) (socks k)) (reg k).
(** A non-blocking receive takes the oldest message. *)
Definition k_take {P} (fd : Z) (k : kern P) : kern P * option P :=
  match find fd (socks k) with
  | Some s => match inq s with
              | p :: _ => (Kern (alter fd (fun s => Sock (owner s) (tl (inq s)) (hup s)) (socks k)) (reg k), Some p)
              | [] => (k, None)
              end
  | None => (k, None)
  end.

(** epoll_wait(2) / kevent(2) answers. *)
Inductive answer := AIntr | AZero | AFail | AEvent (fd : Z) (hangup : bool).
(** What the kernel may answer: an event only for a listed socket that is
    readable or closed at the other end, flagged with the latter. *)
Definition answer_ok {P} (k : kern P) (a : answer) : Prop :=
  match a with
  | AEvent fd h => In fd (reg k)
      /\ exists s, find fd (socks k) = Some s /\ (inq s <> [] \/ hup s = true) /\ h = hup s
  | _ => True
  end.

(** *** Poller *)

(** add, poller_epoll.h 33-42, poller_kqueue.h 33-41: [false] is the
    DefaultPal::error abort (EPOLL_CTL_ADD on a listed descriptor fails with
    EEXIST, EV_ADD does not). *)
Definition add {P} (kq : bool) (fd : Z) (k : kern P) : kern P * bool :=
  match find fd (socks k) with
  | None => (k, false)                                            (* EBADF *)
  | Some _ => if member fd (reg k) then (k, kq) else (Kern (socks k) (fd :: reg k), true)
  end.

(** poll, poller_epoll.h 53-89 and poller_kqueue.h 53-68, given the kernel's
    successive answers; [None] means it is still waiting. *)
Inductive polled := PFalse | PTrue (fd : Z) (eof : bool).
Fixpoint epoll_poll {P} (l : list answer) (k : kern P) : kern P * option polled :=
  match l with
  | [] => (k, None)
  | AIntr :: r => epoll_poll r k                                  (* 66-69 *)
  | AFail :: _ => (k, Some PFalse)                                (* 70-73 *)
  | AZero :: r => epoll_poll r k                                  (* 74-77 *)
  | AEvent fd h :: _ =>
    ((if h then Kern (socks k) (unlist fd (reg k)) else k), Some (PTrue fd h))   (* 78-88 *)
  end.
Definition kqueue_poll {P} (l : list answer) (k : kern P) : kern P * option polled :=
  match l with
  | [] => (k, None)
  | AEvent fd h :: _ => (k, Some (PTrue fd h))
  | _ :: _ => (k, Some PFalse)
  end.
Definition poll {P} (kq : bool) : list answer -> kern P -> kern P * option polled :=
  if kq then kqueue_poll else epoll_poll.

(** *** Histories *)

Inductive op (P : Type) :=
| OOpen (fd : Z) (who : nat) | OClose (fd : Z) | OData (fd : Z) (p : P) | OHang (fd : Z) | OTake (fd : Z)
| OAdd (fd : Z) | OPoll (l : list answer).
Arguments OOpen {P}. Arguments OClose {P}. Arguments OData {P}. Arguments OHang {P}. Arguments OTake {P}.
Arguments OAdd {P}. Arguments OPoll {P}.
Inductive res (P : Type) := RNone | RTook (p : option P) | RAdded (ok : bool) | RPolled (r : option polled).
Arguments RNone {P}. Arguments RTook {P}. Arguments RAdded {P}. Arguments RPolled {P}.
Definition step {P} (kq : bool) (o : op P) (k : kern P) : kern P * res P :=
  match o with
  | OOpen fd who => (k_open fd who k, RNone)
  | OClose fd => (k_close fd k, RNone)
  | OData fd p => (k_data fd p k, RNone)
  | OHang fd => (k_hang fd k, RNone)
  | OTake fd => let (k, p) := k_take fd k in (k, RTook p)
  | OAdd fd => let (k, b) := add kq fd k in (k, RAdded b)
  | OPoll l => let (k, r) := poll kq l k in (k, RPolled r)
  end.
Definition possible {P} (o : op P) (k : kern P) : Prop :=
  match o with
  | OOpen fd _ => find fd (socks k) = None
  | OPoll l => Forall (answer_ok k) l
  | _ => True
  end.
Definition init {P} : kern P := Kern [] [].
Inductive runs {P} (kq : bool) : list (op P * res P) -> kern P -> Prop :=
| runs_0 : runs kq [] init
| runs_snoc tr k o k' r : runs kq tr k -> possible o k -> step kq o k = (k', r) -> runs kq (tr ++ [(o, r)]) k'.
