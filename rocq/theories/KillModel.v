(** What a forbidden system call does to a sandbox with several threads.  The
    filter's default action is SCMP_ACT_KILL
    (include/process_sandbox/platform/sandbox_seccomp-bpf.h 70), which libseccomp
    defines as SCMP_ACT_KILL_THREAD: the kernel ends the calling thread, not the
    process.  The library may start threads (clone, 337-342).  The host sees the
    process through waitpid (platform/child_process_vfork.h 52-79), which
    reports an exit only once no thread is left.  Host code: ProtoModel.host_step.
    No proofs in this file. *)
From Coq Require Import List ZArith Bool.
From Verif Require Import SeccompModel ProtoModel HostileModel.
Import ListNotations.
Open Scope Z_scope.

(** The live threads of the sandbox process, and the rest as in ProtoModel; the
    sandbox's own control state there is not used, except that it is [CKilled]
    once the process has ended. *)
Record sbx := Sbx { threads : list Z; proto : conf }.

Inductive act :=
| Host (fail : bool)                                       (* a step of the host *)
| Sys (t : Z) (c : sysc) (child : Z)                       (* thread [t] makes a system call; the kernel numbers a
                                                              thread it starts [child] *)
| Touch (t : Z) (v : shared) (sent : list Z) (got : nat)   (* thread [t] uses the shared header and the socket *)
| Fault (t : Z).                                           (* thread [t] faults, which ends the process *)

Definition live (t : Z) (ts : list Z) : bool := existsb (Z.eqb t) ts.
Definition finish (t : Z) (ts : list Z) : list Z := filter (fun u => negb (u =? t)) ts.

(** The threads after the call: exit is 60, exit_group 231, clone 56, execve 59
    and execveat 322 (which leave the calling thread only, here with its number
    unchanged, and are assumed to succeed: failure would change nothing).  A
    trapped call runs the handler of src/library_runner.cc 887-894 in the same
    thread. *)
Definition after (self t : Z) (c : sysc) (child : Z) (ts : list Z) : list Z :=
  match decide (policy self) c with
  | Kill => finish t ts
  | Trap => ts
  | Allow =>
    if sc_nr c =? 60 then finish t ts
    else if sc_nr c =? 231 then []
    else if (sc_nr c =? 59) || (sc_nr c =? 322) then [t]
    else if sc_nr c =? 56 then ts ++ [child]
    else ts
  end.

(** The process ends with its last thread. *)
Definition keep (ts : list Z) (s : conf) : sbx :=
  Sbx ts (match ts with [] => child_dies s | _ => s end).

Section Kill.
Variable self : Z.
Variable debug spurious : bool.
Variable host_do : list event -> hact.

Definition kstep (a : act) (s : sbx) : option sbx :=
  match a with
  | Host fail =>
    match host_step debug spurious host_do fail (proto s) with
    | Some c => Some (Sbx (threads s) c)
    | None => None
    end
  | Sys t c child =>
    if live t (threads s) then Some (keep (after self t c child (threads s)) (proto s)) else None
  | Touch t v sent got => if live t (threads s) then Some (Sbx (threads s) (meddle v sent got (proto s))) else None
  | Fault t => if live t (threads s) then Some (keep [] (proto s)) else None
  end.

Fixpoint kruns (l : list act) (s : sbx) : option sbx :=
  match l with
  | [] => Some s
  | a :: r => match kstep a s with Some s' => kruns r s' | None => None end
  end.
End Kill.

(** After the library is loaded: one thread, whose number is the process's. *)
Definition started (self : Z) : sbx := Sbx [self] idle.
