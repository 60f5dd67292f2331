(** Callback handlers of the host that throw.  Library::send and
    CallbackDispatcher::handle (src/libsandbox.cc 661-681, 934-991) have no
    handler of their own: an exception that leaves a callback handler leaves
    [handle] before a reply is sent (677) and [send] before callback_depth is
    decremented and the sandbox woken (946-948, 986-988).  Everything else is
    ProtoModel.  No proofs in this file. *)
From Coq Require Import List ZArith Bool.
From Verif Require Import ProtoModel.
Import ListNotations.
Open Scope Z_scope.

(** What user code of the host does next: an action of ProtoModel, or an
    exception.  [caught]: by the code that made the innermost call, which may
    itself be a handler; otherwise it leaves every handler in progress and is
    caught by the host's top-level code. *)
Inductive xact := XDo (a : hact) | XThrow (caught : bool).

Section Throw.
Variable debug spurious : bool.
Variable host_do : list event -> xact.
Variable child_do : list event -> cact.

(** At the top level an exception leaves the code that owns the Library, which is
    destroyed as when that code returns. *)
Definition plain (l : list event) : hact :=
  match host_do l with XDo a => a | XThrow _ => HReturn 0 end.

Definition xhost_step (fail : bool) (s : conf) : option conf :=
  match hpc s, host_do (log s), hstk s with
  | HUser, XThrow caught, _ :: st =>
    Some (Conf (sh s) HUser (if caught then st else []) (cpc s) (cstk s) (reqs s) (resps s) (log s ++ [EThrow]))
  | _, _, _ => host_step debug spurious plain fail s
  end.

Inductive xstep : conf -> conf -> Prop :=
| xstep_host fail s s' : xhost_step fail s = Some s' -> xstep s s'
| xstep_child fail s s' : child_step debug child_do fail s = Some s' -> xstep s s'.

Inductive xreach (s0 : conf) : conf -> Prop :=
| xreach_0 : xreach s0 s0
| xreach_step s s' : xreach s0 s -> xstep s s' -> xreach s0 s'.
End Throw.
