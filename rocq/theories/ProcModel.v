(** Model of the sandbox process as its owner sees it:
    include/process_sandbox/platform/child_process_vfork.h and
    Library::has_child_exited, Library::terminate (src/libsandbox.cc 993-1004),
    for a host with any number of libraries.  The kernel keeps the host's
    children; process numbers are reused once a child has been reaped.  No proofs
    in this file. *)
From Coq Require Import List ZArith Bool.
Import ListNotations.
Open Scope Z_scope.

(** Kernel side: a child of the host, by identity.  The raw status is what
    waitpid(2) stores. *)
Inductive kstate := Running | Zombie (raw : Z).
Record kid := Kid { uid : nat; kpid : Z; kst : kstate }.

(** child_process_vfork.h 30-41: the two fields of a ChildProcess; the cached
    status is None while has_exited is false. *)
Record proc := Proc { lpid : Z; seen : option Z }.

(** System calls made, by the index of the library that made them. *)
Inductive kcall :=
| TWait (i : nat)                          (* a waitpid(2) call *)
| TReap (i u : nat)                        (* ... that reaped child u *)
| TKill (i : nat) (p : Z) (target : option nat).  (* kill(p, SIGKILL), and the child hit *)

Record host := Host { procs : list proc; kids : list kid; forks : nat; trace : list kcall }.
Definition init : host := Host [] [] 0 [].

(** WEXITSTATUS of glibc: (status & 0xff00) >> 8. *)
Definition wexit (raw : Z) : Z := Z.land (Z.shiftr raw 8) 255.
(** The status of a process killed by SIGKILL. *)
Definition SIGKILL : Z := 9.

Definition upd {A} (l : list A) (i : nat) (a : A) : list A :=
  firstn i l ++ match skipn i l with [] => [] | _ :: t => a :: t end.

(** waitpid(2).  Process number -1 means any child; [choice] is the kernel's
    choice among its zombies. *)
Inductive kanswer := AReaped (k : kid) (raw : Z) | ARunning | ABlocks | AError.
Definition is_zombie (k : kid) : bool := match kst k with Zombie _ => true | Running => false end.
Definition raw_of (k : kid) : Z := match kst k with Zombie r => r | Running => 0 end.
Definition kwait (nohang : bool) (p : Z) (choice : nat) (ks : list kid) : kanswer :=
  if p =? -1 then
    match nth_error (filter is_zombie ks) choice, filter is_zombie ks with
    | Some k, _ => AReaped k (raw_of k)
    | None, k :: _ => AReaped k (raw_of k)
    | None, [] => match ks with [] => AError | _ => if nohang then ARunning else ABlocks end
    end
  else
    match find (fun k => kpid k =? p) ks with
    | None => AError                        (* ECHILD *)
    | Some k => match kst k with
                | Zombie r => AReaped k r
                | Running => if nohang then ARunning else ABlocks
                end
    end.
Definition reap (u : nat) (ks : list kid) : list kid := filter (fun k => negb (Nat.eqb (uid k) u)) ks.

(** kill(2) with SIGKILL: number -1 means every process the host may signal. *)
Definition killed (k : kid) : kid := match kst k with Running => Kid (uid k) (kpid k) (Zombie SIGKILL) | _ => k end.
Definition kkill (p : Z) (ks : list kid) : list kid :=
  map (fun k => if (p =? -1) || (kpid k =? p) then killed k else k) ks.
Definition target (p : Z) (ks : list kid) : option nat :=
  if p =? -1 then None else option_map uid (find (fun k => kpid k =? p) ks).

(** What a call returns.  [RExit] is the host's err(1), line 68; [RBlocked] a
    call that does not return until something else happens. *)
Inductive res := RStatus (exited : bool) (code : Z) | RDone | RBlocked | RExit.

(** ChildProcessVFork::waitpid, 52-75.  [intr] is how often the system call was
    interrupted before it answered. *)
Definition waitpid (nohang : bool) (i intr choice : nat) (s : host) : host * res :=
  match nth_error (procs s) i with
  | None => (s, RDone)
  | Some l =>
    match seen l with
    | Some c => (s, RStatus true c)                                       (* 54-57 *)
    | None =>
      let t := trace s ++ repeat (TWait i) (S intr) in
      match kwait nohang (lpid l) choice (kids s) with
      | AReaped k r =>
        let t := t ++ [TReap i (uid k)] in
        let ks := reap (uid k) (kids s) in
        if kpid k =? lpid l
        then (Host (upd (procs s) i (Proc (lpid l) (Some (wexit r)))) ks (forks s) t,
              RStatus true (wexit r))                                     (* 70-73 *)
        else (Host (procs s) ks (forks s) t, RStatus false 0)
      | ARunning => (Host (procs s) (kids s) (forks s) t, RStatus false 0)
      | ABlocks => (Host (procs s) (kids s) (forks s) t, RBlocked)
      | AError => (Host (procs s) (kids s) (forks s) t, RExit)            (* 66-69 *)
      end
    end
  end.

(** ChildProcessVFork::terminate, 125-128: no look at the cached status. *)
Definition proc_terminate (i : nat) (s : host) : host :=
  match nth_error (procs s) i with
  | None => s
  | Some l => Host (procs s) (kkill (lpid l) (kids s)) (forks s)
                (trace s ++ [TKill i (lpid l) (target (lpid l) (kids s))])
  end.

(** Library::terminate, libsandbox.cc 998-1004. *)
Definition lib_terminate (i intr choice : nat) (s : host) : host * res :=
  match waitpid true i intr choice s with
  | (s', RStatus true _) => (s', RDone)
  | (s', RExit) => (s', RExit)
  | (s', _) => (proc_terminate i s', RDone)
  end.

(** What happens: a library is created and the kernel gives its child number p,
    or vfork fails with -1, which the constructor (83-103) does not look at; a
    child exits; the host asks for a status (109-112), waits (117-120),
    terminates a library, or uses ChildProcess::terminate directly. *)
Inductive op :=
| Fork (p : Z) | ForkFails
| Exits (u : nat) (raw : Z)
| Query (i intr choice : nat) | WaitFor (i intr choice : nat)
| Terminate (i intr choice : nat) | RawTerminate (i : nat).

Definition step (o : op) (s : host) : host * res :=
  match o with
  | Fork p => (Host (procs s ++ [Proc p None]) (kids s ++ [Kid (forks s) p Running]) (S (forks s)) (trace s), RDone)
  | ForkFails => (Host (procs s ++ [Proc (-1) None]) (kids s) (S (forks s)) (trace s), RDone)
  | Exits u raw =>
    (Host (procs s) (map (fun k => if Nat.eqb (uid k) u then Kid u (kpid k) (Zombie raw) else k) (kids s))
       (forks s) (trace s), RDone)
  | Query i n c => waitpid true i n c s
  | WaitFor i n c => waitpid false i n c s
  | Terminate i n c => lib_terminate i n c s
  | RawTerminate i => (proc_terminate i s, RDone)
  end.

(** Rules of the kernel and of sensible use: a new child gets a number no
    unreaped child has; only running children exit; calls are made on existing
    libraries. *)
Definition possible (o : op) (s : host) : Prop :=
  match o with
  | Fork p => 0 < p /\ ~ In p (map kpid (kids s))
  | ForkFails => True
  | Exits u _ => exists p, In (Kid u p Running) (kids s)
  | Query i _ _ | WaitFor i _ _ | Terminate i _ _ | RawTerminate i => (i < length (procs s))%nat
  end.

Inductive runs : host -> list op -> list res -> host -> Prop :=
| runs_0 s : runs s [] [] s
| runs_snoc s os rs s1 o s2 r : runs s os rs s1 -> possible o s1 -> step o s1 = (s2, r) ->
    runs s (os ++ [o]) (rs ++ [r]) s2.

(** ** Two host threads asking about one child

    The cached status is an ordinary field: 54-57 and 70-73 are separate from
    the system call.  Where a thread is in waitpid(WNOHANG): *)
Inductive tpc := TStart | TChecked | TReaped (raw : Z) | TDone (exited : bool) | TExitedHost.
Record race := Race { rseen : option Z; rkid : option kstate; t1 : tpc; t2 : tpc }.
Definition thread (seen : option Z) (k : option kstate) (t : tpc) : option (option Z * option kstate * tpc) :=
  match t with
  | TStart => Some (seen, k, match seen with Some _ => TDone true | None => TChecked end)
  | TChecked =>
    Some match k with
         | Some Running => (seen, k, TDone false)
         | Some (Zombie r) => (seen, None, TReaped r)
         | None => (seen, k, TExitedHost)                  (* ECHILD, err(1) *)
         end
  | TReaped r => Some (Some (wexit r), k, TDone true)
  | _ => None
  end.
Inductive race_step : race -> race -> Prop :=
| race_1 s v k t : thread (rseen s) (rkid s) (t1 s) = Some (v, k, t) -> race_step s (Race v k t (t2 s))
| race_2 s v k t : thread (rseen s) (rkid s) (t2 s) = Some (v, k, t) -> race_step s (Race v k (t1 s) t)
| race_exit s r : rkid s = Some Running -> race_step s (Race (rseen s) (Some (Zombie r)) (t1 s) (t2 s))
(* a finished query may be followed by another *)
| race_again1 s b : t1 s = TDone b -> race_step s (Race (rseen s) (rkid s) TStart (t2 s))
| race_again2 s b : t2 s = TDone b -> race_step s (Race (rseen s) (rkid s) (t1 s) TStart).
Inductive race_reach : race -> race -> Prop :=
| rr_0 s : race_reach s s
| rr_1 s s1 s2 : race_reach s s1 -> race_step s1 s2 -> race_reach s s2.
Definition race_init : race := Race None (Some Running) TStart TStart.
