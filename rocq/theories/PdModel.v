(** Model of the sandbox process as its owner sees it on FreeBSD:
    include/process_sandbox/platform/child_process_pdfork.h and
    Library::has_child_exited, Library::terminate (src/libsandbox.cc 993-1004),
    for a host with any number of libraries.  Processes are named by process
    descriptors, which keep naming the same process until they are closed; closing
    one kills its process (pdfork(2) without PD_DAEMON).  No proofs in this file. *)
From Coq Require Import List ZArith Bool.
From Verif Require Import ProcModel.
Import ListNotations.
Open Scope Z_scope.

(** Kernel side: a process made by pdfork, by identity (its index), and whether
    its descriptor is still open. *)
Record child := Child { cst : kstate; copen : bool }.

(** child_process_pdfork.h 26-40: what the descriptor in [proc] names (None: no
    process descriptor), the cached status, and whether the exit event of [kq]
    was already fetched: the kernel delivers it once (filt_procdesc sets
    EV_ONESHOT). *)
Record plib := PLib { names : option nat; pseen : option Z; fetched : bool }.

(** System calls made. *)
Inductive pcall :=
| PTKevent (i : nat)                       (* a kevent(2) call that waits *)
| PTKill (i : nat) (hit : option nat).     (* pdkill, and the process it named *)

Record phost := PHost { plibs : list plib; children : list child; ptrace : list pcall }.
Definition pinit : phost := PHost [] [] [].

(** The event waiting in a library's kqueue, 56: its data is the raw status. *)
Definition pending (s : phost) (l : plib) : option Z :=
  match names l with
  | None => None
  | Some u => match nth_error (children s) u with
              | Some (Child (Zombie raw) true) => if fetched l then None else Some raw
              | _ => None
              end
  end.

(** wait_for_exit with a time-out, 46-67.  [intr] is how often kevent was interrupted
    before it answered; a wait for the descriptor set up by the constructor does
    not fail otherwise. *)
Definition pwait (block : bool) (i intr : nat) (s : phost) : phost * res :=
  match nth_error (plibs s) i with
  | None => (s, RDone)
  | Some l =>
    match pseen l with
    | Some c => (s, RStatus true c)                                        (* 48-51 *)
    | None =>
      let t := ptrace s ++ repeat (PTKevent i) (S intr) in                 (* 54-58 *)
      match pending s l with
      | Some raw => (PHost (upd (plibs s) i (PLib (names l) (Some (wexit raw)) true)) (children s) t,
                     RStatus true (wexit raw))                             (* 63-66 *)
      | None => (PHost (plibs s) (children s) t, if block then RBlocked else RStatus false 0)
      end
    end
  end.

Definition pkill (u : nat) (cs : list child) : list child :=
  match nth_error cs u with
  | Some (Child Running true) => upd cs u (Child (Zombie SIGKILL) true)
  | _ => cs
  end.

(** terminate, 122-125. *)
Definition pterminate (i : nat) (s : phost) : phost :=
  match nth_error (plibs s) i with
  | None => s
  | Some l => PHost (plibs s)
                (match names l with Some u => pkill u (children s) | None => children s end)
                (ptrace s ++ [PTKill i (names l)])
  end.
(** Library::terminate, libsandbox.cc 998-1004. *)
Definition plib_terminate (i intr : nat) (s : phost) : phost * res :=
  match pwait false i intr s with
  | (s', RStatus true _) => (s', RDone)
  | (s', _) => (pterminate i s', RDone)
  end.

(** The destructor, which closes [proc] (platform.h 137-140). *)
Definition pdestroy (i : nat) (s : phost) : phost :=
  match nth_error (plibs s) i with
  | None => s
  | Some l =>
    match names l with
    | None => s
    | Some u => match nth_error (children s) u with
                | Some (Child Running true) => PHost (plibs s) (upd (children s) u (Child (Zombie SIGKILL) false)) (ptrace s)
                | Some (Child st _) => PHost (plibs s) (upd (children s) u (Child st false)) (ptrace s)
                | None => s
                end
    end
  end.

(** What happens.  The constructor, 76-100: pdfork works; or it fails, which is
    not looked at, and [pd] is whatever the uninitialised variable held
    ([garbage] says which process descriptor that number is, if any); or the
    kqueue cannot be set up, which ends the host, 96-99. *)
Inductive pop :=
| PFork | PForkFails (garbage : option nat) | PNoQueue
| PExits (u : nat) (raw : Z)
| PQuery (i intr : nat) | PWaitFor (i intr : nat)
| PTerminate (i intr : nat) | PRawTerminate (i : nat)
| PDestroy (i : nat).

Definition pstep (o : pop) (s : phost) : phost * res :=
  match o with
  | PFork => (PHost (plibs s ++ [PLib (Some (length (children s))) None false]) (children s ++ [Child Running true]) (ptrace s), RDone)
  | PForkFails g =>
    match g with
    | Some u => match nth_error (children s) u with
                | Some (Child _ true) => (PHost (plibs s ++ [PLib (Some u) None false]) (children s) (ptrace s), RDone)
                | _ => (s, RExit)
                end
    | None => (s, RExit)                                                   (* EV_ADD fails, 96-99 *)
    end
  | PNoQueue => (s, RExit)
  | PExits u raw => (PHost (plibs s) (match nth_error (children s) u with
                                      | Some (Child Running b) => upd (children s) u (Child (Zombie raw) b)
                                      | _ => children s end) (ptrace s), RDone)
  | PQuery i n => pwait false i n s                                        (* 105-110 *)
  | PWaitFor i n => pwait true i n s                                       (* 115-118 *)
  | PTerminate i n => plib_terminate i n s
  | PRawTerminate i => (pterminate i s, RDone)
  | PDestroy i => (pdestroy i s, RDone)
  end.

(** Calls are made on existing libraries. *)
Definition ppossible (o : pop) (s : phost) : Prop :=
  match o with
  | PQuery i _ | PWaitFor i _ | PTerminate i _ | PRawTerminate i | PDestroy i => (i < length (plibs s))%nat
  | _ => True
  end.

Inductive pruns : phost -> list pop -> list res -> phost -> Prop :=
| pruns_0 s : pruns s [] [] s
| pruns_snoc s os rs s1 o s2 r : pruns s os rs s1 -> ppossible o s1 -> pstep o s1 = (s2, r) ->
    pruns s (os ++ [o]) (rs ++ [r]) s2.

(** ** Two host threads using one library

    The cached status is an ordinary field and the event is delivered once. *)
Inductive ppc := PStart | PChecked | PGot (raw : Z) | PDone (exited : bool).
(** [prkid]: the process's status once it has ended; [prevent]: its event was fetched. *)
Record prace := PRace { prseen : option Z; prkid : option Z; prevent : bool; pt1 : ppc; pt2 : ppc }.
(** One step of a thread in wait_for_exit, 46-67; a blocking call has no step
    while there is no event. *)
Definition pthread (block : bool) (seen kid : option Z) (ev : bool) (t : ppc) : option (option Z * bool * ppc) :=
  match t with
  | PStart => Some (seen, ev, match seen with Some _ => PDone true | None => PChecked end)
  | PChecked =>
    match kid, ev with
    | Some raw, false => Some (seen, true, PGot raw)
    | _, _ => if block then None
              else Some (seen, ev, PDone (match seen with Some _ => true | None => false end))    (* 67 *)
    end
  | PGot raw => Some (Some (wexit raw), ev, PDone true)
  | PDone _ => None
  end.
(** Thread 1 polls, as often as it likes; thread 2 makes one blocking call. *)
Inductive prace_step : prace -> prace -> Prop :=
| pr_1 s v e t : pthread false (prseen s) (prkid s) (prevent s) (pt1 s) = Some (v, e, t) -> prace_step s (PRace v (prkid s) e t (pt2 s))
| pr_2 s v e t : pthread true (prseen s) (prkid s) (prevent s) (pt2 s) = Some (v, e, t) -> prace_step s (PRace v (prkid s) e (pt1 s) t)
| pr_exit s raw : prkid s = None -> prace_step s (PRace (prseen s) (Some raw) (prevent s) (pt1 s) (pt2 s))
| pr_again s b : pt1 s = PDone b -> prace_step s (PRace (prseen s) (prkid s) (prevent s) PStart (pt2 s)).
Inductive prace_reach : prace -> prace -> Prop :=
| prr_0 s : prace_reach s s
| prr_1 s s1 s2 : prace_reach s s1 -> prace_step s1 s2 -> prace_reach s s2.
Definition prace_init : prace := PRace None None false PStart PStart.
