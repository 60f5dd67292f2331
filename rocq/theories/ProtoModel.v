(** Model of the protocol that hands control between the host and the sandbox:
    Library::send, CallbackDispatcher::handle, Library::wait_for_child_exit in
    src/libsandbox.cc and runloop, callback, main in src/library_runner.cc,
    over the fields of include/process_sandbox/shared_memory_region.h.

    One host thread uses the library and the sandbox has one thread.  Every
    access to shared memory is one atomic step, in any interleaving.  The two
    semaphores are taken at the level of SemProps.v: wake aborts its caller
    unless the word is 0, wait takes a set token or reports failure only while
    there is none.  User code on both sides is arbitrary: its next action is any
    function of the whole history.  Argument frames and callback payloads are
    numbers.  No proofs in this file. *)
From Coq Require Import List ZArith Bool.
Import ListNotations.
Open Scope Z_scope.

(** shared_memory_region.h 17-89, the fields the protocol uses. *)
Record shared := Shared {
  depth : Z;            (* token.callback_depth *)
  findex : Z;           (* function_index *)
  mbuf : Z;             (* msg_buffer, 0 is null *)
  cflag : Z;            (* token.child *)
  pflag : Z;            (* token.parent *)
  executing : bool;     (* token.is_child_executing *)
  should_exit : bool;
  loaded : bool }.      (* token.is_child_loaded *)

Definition set_depth v s := Shared v (findex s) (mbuf s) (cflag s) (pflag s) (executing s) (should_exit s) (loaded s).
Definition set_findex v s := Shared (depth s) v (mbuf s) (cflag s) (pflag s) (executing s) (should_exit s) (loaded s).
Definition set_mbuf v s := Shared (depth s) (findex s) v (cflag s) (pflag s) (executing s) (should_exit s) (loaded s).
Definition set_cflag v s := Shared (depth s) (findex s) (mbuf s) v (pflag s) (executing s) (should_exit s) (loaded s).
Definition set_pflag v s := Shared (depth s) (findex s) (mbuf s) (cflag s) v (executing s) (should_exit s) (loaded s).
Definition set_executing v s := Shared (depth s) (findex s) (mbuf s) (cflag s) (pflag s) v (should_exit s) (loaded s).
Definition set_should_exit v s := Shared (depth s) (findex s) (mbuf s) (cflag s) (pflag s) (executing s) v (loaded s).
Definition set_loaded v s := Shared (depth s) (findex s) (mbuf s) (cflag s) (pflag s) (executing s) (should_exit s) v.

(** What both sides' user code does and what happens to it, in order. *)
Inductive event :=
| EReq (i b : Z)        (* host: a call of function i with frame b starts *)
| EInvoke (i b : Z)     (* sandbox: function i starts with frame b *)
| ECallback (k : Z)     (* sandbox: a callback with payload k starts *)
| EHandle (k : Z)       (* host: the handler for payload k starts *)
| EHandled (k r : Z)    (* host: that handler returns r *)
| EResume (k r : Z)     (* sandbox: the callback returns r *)
| EReturn (i b : Z)     (* sandbox: the function returns *)
| EDone (i b : Z)       (* host: the call returns *)
| EQuit                 (* host: the Library is being destroyed *)
| EThrow.               (* host: the call throws *)

(** The next action of user code.  In a handler [HReturn r] returns r; at the
    top level it means the host destroys the Library. *)
Inductive hact := HCall (i b : Z) | HReturn (r : Z).
Inductive cact := CCallback (k : Z) | CReturn.

(** Host control points; line numbers of src/libsandbox.cc. *)
Inductive hstate :=
| HUser                       (* user code: top level or a callback handler *)
| HLoop (i b : Z)             (* 940: while (!is_child_loaded) *)
| HDepth (i b : Z)            (* 942: callback_depth > 0 *)
| HLWait (i b : Z)            (* 944: parent.wait(INT_MAX) *)
| HLHandle (i b : Z)          (* 945: handle, 661-681 *)
| HLDec (i b : Z)             (* 946 *)
| HLExec (i b : Z)            (* 947 *)
| HLWake (i b : Z)            (* 948 *)
| HSnap (i b : Z)             (* 956: callback_depth.load() *)
| HIdx (i b d : Z)            (* 957 *)
| HBuf (i b d : Z)            (* 958 *)
| HExec (i b d : Z)           (* 959-960 *)
| HWake (i b d : Z)           (* 961 *)
| HWait (i b d : Z)           (* 971: parent.wait(100) *)
| HPoll (i b d : Z)           (* 973: has_child_exited() *)
| HCheck (i b d : Z)          (* 983: callback_depth.load() > callback_depth *)
| HHandle (i b d : Z)         (* 985: handle *)
| HDec (i b d : Z)            (* 986 *)
| HExec2 (i b d : Z)          (* 987 *)
| HWake2 (i b d : Z)          (* 988 *)
| HQuit1 | HQuit2 | HQuit3 | HQuit4 | HQuit5   (* wait_for_child_exit, 1008-1017 *)
| HEnd | HThrew | HAborted.

(** Handlers on the host's stack and where they return to. *)
Inductive hframe := FLoad (i b k : Z) | FSend (i b d k : Z).

(** Sandbox control points; line numbers of src/library_runner.cc. *)
Inductive cstate :=
| CUser                       (* exported function, or loading in main *)
| CInc (k : Z)                (* 460: ++callback_depth *)
| CExec (k d : Z)             (* 461 *)
| CWake (k d : Z)             (* 462 *)
| CChk (d : Z)                (* 316: should_exit *)
| CWait (d : Z)               (* 320: child.wait(INT_MAX) *)
| CInv (d : Z)                (* 321-323: debug check *)
| CIdx (d : Z)                (* 324 *)
| CBuf (d i : Z)              (* 325 *)
| CNull (d i b : Z)           (* 326, then 329-330 *)
| CDepth (d : Z)              (* 337 *)
| CExec2 (d : Z)              (* 344 *)
| CWake2 (d : Z)              (* 345 *)
| CRecv                       (* 466: blocking_receive *)
| CFin1 | CFin2               (* main, 1115-1116 *)
| CExit                       (* exit(0) *)
| CAborted                    (* SANDBOX_INVARIANT *)
| CKilled.                    (* died at some point of user or run-time code *)

(** The sandbox's stack: an exported function invoked by the run loop of depth
    d, a callback in progress, or main still loading with the callbacks it will
    yet make. *)
Inductive cframe := KRun (d i b : Z) | KCb (k : Z) | KLoad (rest : list Z).

Record conf := Conf {
  sh : shared; hpc : hstate; hstk : list hframe; cpc : cstate; cstk : list cframe;
  reqs : list Z; resps : list Z;       (* the callback socket, both directions *)
  log : list event }.

(** OneBitSem::wake, onebitsem_futex.h 39-47: [None] is the failed invariant. *)
Definition wake (flag : Z) : option Z := if flag =? 0 then Some 1 else None.
(** OneBitSem::wait, 48-76: the token is taken iff there is one. *)
Definition wait (flag : Z) : option Z := if 0 <? flag then Some (flag - 1) else None.

Definition gone (c : cstate) : bool :=
  match c with CExit | CAborted | CKilled => true | _ => false end.

(** sandbox_invoke is null until main has looked it up (297, 1110). *)
Definition loading (st : list cframe) : bool :=
  existsb (fun f => match f with KLoad _ => true | _ => false end) st.

Section Proto.
(** [debug]: build with assertions.  [spurious]: whether the wait of line 944 may
    report failure although no time-out of INT_MAX milliseconds passed; its
    result is ignored. *)
Variable debug spurious : bool.
Variable host_do : list event -> hact.
Variable child_do : list event -> cact.

(** One host step.  [fail] resolves a wait on an unset semaphore: report
    failure, or stay blocked (no step). *)
Definition host_step (fail : bool) (s : conf) : option conf :=
  let goto p := Some (Conf (sh s) p (hstk s) (cpc s) (cstk s) (reqs s) (resps s) (log s)) in
  let goto_set v p := Some (Conf v p (hstk s) (cpc s) (cstk s) (reqs s) (resps s) (log s)) in
  let goto_log e p := Some (Conf (sh s) p (hstk s) (cpc s) (cstk s) (reqs s) (resps s) (log s ++ [e])) in
  let wake_child p :=
    match wake (cflag (sh s)) with
    | Some v => goto_set (set_cflag v (sh s)) p
    | None => goto HAborted
    end in
  (* handle, 661-681: without a request it returns at once *)
  let handle frame p :=
    match reqs s with
    | [] => goto p
    | k :: rest => Some (Conf (sh s) HUser (frame k :: hstk s) (cpc s) (cstk s) rest (resps s)
                           (log s ++ [EHandle k]))
    end in
  match hpc s with
  | HUser =>
    match host_do (log s), hstk s with
    | HCall i b, _ => goto_log (EReq i b) (HLoop i b)
    | HReturn _, [] => goto_log EQuit HQuit1
    | HReturn r, FLoad i b k :: st =>
      Some (Conf (sh s) (HLDec i b) st (cpc s) (cstk s) (reqs s) (resps s ++ [r]) (log s ++ [EHandled k r]))
    | HReturn r, FSend i b d k :: st =>
      Some (Conf (sh s) (HDec i b d) st (cpc s) (cstk s) (reqs s) (resps s ++ [r]) (log s ++ [EHandled k r]))
    end
  (* send: loading, 938-954 (is_first_call is never cleared) *)
  | HLoop i b => if loaded (sh s) then goto (HSnap i b) else goto (HDepth i b)
  | HDepth i b => if 0 <? depth (sh s) then goto (HLWait i b) else goto (HLoop i b)
  | HLWait i b =>
    match wait (pflag (sh s)) with
    | Some v => goto_set (set_pflag v (sh s)) (HLHandle i b)
    | None => if fail && spurious then goto (HLHandle i b) else None
    end
  | HLHandle i b => handle (FLoad i b) (HLDec i b)
  | HLDec i b => goto_set (set_depth (depth (sh s) - 1) (sh s)) (HLExec i b)
  | HLExec i b => goto_set (set_executing true (sh s)) (HLWake i b)
  | HLWake i b => wake_child (HLoop i b)
  (* send: the call, 956-991 *)
  | HSnap i b => goto (HIdx i b (depth (sh s)))
  | HIdx i b d => goto_set (set_findex i (sh s)) (HBuf i b d)
  | HBuf i b d => goto_set (set_mbuf b (sh s)) (HExec i b d)
  | HExec i b d =>
    if debug && executing (sh s) then goto HAborted
    else goto_set (set_executing true (sh s)) (HWake i b d)
  | HWake i b d => wake_child (HWait i b d)
  | HWait i b d =>
    match wait (pflag (sh s)) with
    | Some v => goto_set (set_pflag v (sh s)) (HCheck i b d)
    | None => if fail then goto (HPoll i b d) else None
    end
  | HPoll i b d => if gone (cpc s) then goto_log EThrow HThrew else goto (HWait i b d)
  | HCheck i b d =>
    if d <? depth (sh s) then goto (HHandle i b d) else goto_log (EDone i b) HUser
  | HHandle i b d => handle (FSend i b d) (HDec i b d)
  | HDec i b d => goto_set (set_depth (depth (sh s) - 1) (sh s)) (HExec2 i b d)
  | HExec2 i b d => goto_set (set_executing true (sh s)) (HWake2 i b d)
  | HWake2 i b d => wake_child (HWait i b d)
  (* wait_for_child_exit, 1006-1018 *)
  | HQuit1 => if gone (cpc s) then goto HEnd else goto HQuit2
  | HQuit2 => goto_set (set_should_exit true (sh s)) HQuit3
  | HQuit3 =>
    if debug && executing (sh s) then goto HAborted
    else goto_set (set_executing true (sh s)) HQuit4
  | HQuit4 => wake_child HQuit5
  | HQuit5 => if gone (cpc s) then goto HEnd else None
  (* the exception leaves every handler in progress (their answers are never
     sent) and is caught by the host's own code, which may go on using the
     library; a handler that catches it itself is not modelled *)
  | HThrew => Some (Conf (sh s) HUser [] (cpc s) (cstk s) (reqs s) (resps s) (log s))
  | HEnd | HAborted => None
  end.

(** One sandbox step. *)
Definition child_step (fail : bool) (s : conf) : option conf :=
  let goto p := Some (Conf (sh s) (hpc s) (hstk s) p (cstk s) (reqs s) (resps s) (log s)) in
  let goto_set v p := Some (Conf v (hpc s) (hstk s) p (cstk s) (reqs s) (resps s) (log s)) in
  let request k st :=
    Some (Conf (sh s) (hpc s) (hstk s) (CInc k) st (reqs s ++ [k]) (resps s) (log s ++ [ECallback k])) in
  match cpc s with
  | CUser =>
    match cstk s with
    | KRun d i b :: st =>
      match child_do (log s) with
      | CCallback k => request k (cstk s)                            (* 446-459 *)
      | CReturn => Some (Conf (sh s) (hpc s) (hstk s) (CDepth d) st (reqs s) (resps s)
                           (log s ++ [EReturn i b]))
      end
    | KLoad (k :: rest) :: st => request k (KLoad rest :: st)
    | KLoad [] :: st => Some (Conf (sh s) (hpc s) (hstk s) CFin1 st (reqs s) (resps s) (log s))
    | _ => None
    end
  | CInc k => goto_set (set_depth (depth (sh s) + 1) (sh s)) (CExec k (depth (sh s) + 1))
  | CExec k d => goto_set (set_executing false (sh s)) (CWake k d)
  | CWake k d =>
    match wake (pflag (sh s)) with
    | Some v => Some (Conf (set_pflag v (sh s)) (hpc s) (hstk s) (CChk d) (KCb k :: cstk s)
                        (reqs s) (resps s) (log s))
    | None => goto CAborted
    end
  (* runloop(d), 307-348 *)
  | CChk d => if should_exit (sh s) then goto CExit else goto (CWait d)
  | CWait d =>
    match wait (cflag (sh s)) with
    | Some v => goto_set (set_cflag v (sh s)) (CInv d)
    | None => if fail then goto (CChk d) else None
    end
  | CInv d => if debug && negb (executing (sh s)) then goto CAborted else goto (CIdx d)
  | CIdx d => goto (CBuf d (findex (sh s)))
  | CBuf d i => goto (CNull d i (mbuf (sh s)))
  | CNull d i b =>
    if (b =? 0) || loading (cstk s) then goto_set (set_mbuf 0 (sh s)) (CDepth d)
    else Some (Conf (set_mbuf 0 (sh s)) (hpc s) (hstk s) CUser (KRun d i b :: cstk s)
                 (reqs s) (resps s) (log s ++ [EInvoke i b]))
  | CDepth d =>
    if depth (sh s) =? d then goto (CExec2 d)
    else match cstk s with
         | KCb _ :: _ => goto CRecv            (* back in callback, 463-466 *)
         | _ => goto CExit                     (* main returns *)
         end
  | CExec2 d => goto_set (set_executing false (sh s)) (CWake2 d)
  | CWake2 d =>
    match wake (pflag (sh s)) with
    | Some v => goto_set (set_pflag v (sh s)) (CChk d)
    | None => goto CAborted
    end
  | CRecv =>
    match resps s, cstk s with
    | r :: rest, KCb k :: st =>
      Some (Conf (sh s) (hpc s) (hstk s) CUser st (reqs s) rest (log s ++ [EResume k r]))
    | _, _ => None
    end
  | CFin1 => goto_set (set_executing false (sh s)) CFin2
  | CFin2 => goto_set (set_loaded true (sh s)) (CChk 0)
  | CExit | CAborted | CKilled => None
  end.

(** The sandbox process dies: a fault in its code, a forbidden system call (the
    sandbox has one thread here; with more see KillModel), an out-of-memory
    kill. *)
Definition child_dies (s : conf) : conf :=
  Conf (sh s) (hpc s) (hstk s) CKilled (cstk s) (reqs s) (resps s) (log s).

Inductive step : conf -> conf -> Prop :=
| step_host fail s s' : host_step fail s = Some s' -> step s s'
| step_child fail s s' : child_step fail s = Some s' -> step s s'.

(** Executions of a sandbox that does not die, and of one that may. *)
Inductive reach (s0 : conf) : conf -> Prop :=
| reach_0 : reach s0 s0
| reach_step s s' : reach s0 s -> step s s' -> reach s0 s'.
Inductive reach_dying (s0 : conf) : conf -> Prop :=
| dying_0 : reach_dying s0 s0
| dying_step s s' : reach_dying s0 s -> step s s' -> reach_dying s0 s'
| dying_dies s : reach_dying s0 s -> gone (cpc s) = false -> reach_dying s0 (child_dies s).
End Proto.

(** The state once the Library constructor has started the child (libsandbox.cc
    865-932): nothing shared yet, the sandbox loading with the callbacks it will
    make before it is ready. *)
Definition fresh (init_callbacks : list Z) : conf :=
  Conf (Shared 0 0 0 0 0 false false false) HUser [] CUser [KLoad init_callbacks] [] [] [].

(** The state of a library whose loading has finished and that no call uses. *)
Definition idle : conf :=
  Conf (Shared 0 0 0 0 0 false false true) HUser [] (CChk 0) [] [] [] [].
