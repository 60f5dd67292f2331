(** The order in which Linux's epoll reports ready descriptors to the host's memory
    service, over SvcModel (src/libsandbox.cc 109-285) and PollModel
    (include/process_sandbox/platform/poller_epoll.h).  PollModel lets the kernel
    report any ready descriptor; here it has the ready list of the Linux kernel.  No
    proofs in this file. *)
From Coq Require Import List ZArith Bool.
From Verif Require Import Base MemSvcModel PollModel SvcModel.
Import ListNotations.
Open Scope Z_scope.

(** Level-triggered readiness for EPOLLIN (poller_epoll.h 36: no EPOLLET) or
    EPOLLHUP. *)
Definition readable (so : sock packet) : bool := match inq so with [] => hup so | _ => true end.

(** epoll_wait(ep, &event, 1, -1), poller_epoll.h 66.  The kernel keeps the descriptors
    that became ready in a list.  It takes from the front, drops those that are not
    ready any more, and puts the one that it reports at the back again, since it is
    level-triggered: "successive epoll_wait() calls will round robin through the set of
    ready file descriptors", epoll_wait(2). *)
Fixpoint next (k : kern packet) (r : list Z) : option (Z * bool) * list Z :=
  match r with
  | [] => (None, [])
  | fd :: r =>
    match find fd (socks k) with
    | Some so => if member fd (reg k) && readable so then (Some (fd, hup so), r ++ [fd]) else next k r
    | None => next k r
    end
  end.
(** What epoll_wait answers after [n] interruptions by signals; nothing as long as no
    descriptor is ready.  Simplification: it does not fail otherwise (its other errors
    are for bad arguments). *)
Definition answers (n : nat) (k : kern packet) (r : list Z) : list answer :=
  repeat AIntr n ++ match fst (next k r) with Some (fd, h) => [AEvent fd h] | None => [] end.
(** A message or a close at the far end of sandbox [i]'s socket puts the host's end
    on the list unless it is there. *)
Definition woken (i : nat) (k : kern packet) (r : list Z) : list Z :=
  r ++ filter (fun fd => member fd (reg k) && negb (member fd r)) (map fst (filter (fun x => Nat.eqb (owner (snd x)) i) (socks k))).
(** The list after a step from [s] to [s']; EPOLL_CTL_DEL (poller_epoll.h 86) and close
    take a descriptor off it. *)
Definition ready_after (o : op) (s s' : st) (r : list Z) : list Z :=
  filter (fun fd => member fd (reg (kn s')))
    match o with
    | Send i _ | Hang i => woken i (kn s') r
    | Poll _ => snd (next (kn s) r)
    | _ => r
    end.

(** Histories of SvcModel in which the answers of epoll_wait are those of this list. *)
Inductive fair_runs (c : cfg) (leak : bool) : list (op * list out) -> st -> list Z -> Prop :=
| fair_0 : fair_runs c leak [] init []
| fair_snoc tr s r o s' x : fair_runs c leak tr s r -> possible leak o s ->
    (forall l, o = Poll l -> exists n, l = answers n (kn s) r) ->
    step c false o s = (s', x) -> fair_runs c leak (tr ++ [(o, x)]) s' (ready_after o s s' r).
