(** Specification of nested calls: what a user of ordinary, unsandboxed
    procedure calls would see.  Uses the model's events and the user code's
    decision functions, nothing else. *)
From Coq Require Import List ZArith.
From Verif Require Import ProtoModel.
Import ListNotations.
Open Scope Z_scope.

(** A complete call: requested, invoked once with the same function and frame,
    its callbacks, return, done.  A complete callback: its handler runs once
    with the payload sent, may itself make calls, and its result is the value
    the callback returns. *)
Inductive calls : list event -> Prop :=
| calls_nil : calls []
| calls_cons i b cs rest : callbacks cs -> calls rest ->
    calls (EReq i b :: EInvoke i b :: cs ++ EReturn i b :: EDone i b :: rest)
with callbacks : list event -> Prop :=
| callbacks_nil : callbacks []
| callbacks_cons k r cs rest : calls cs -> callbacks rest ->
    callbacks (ECallback k :: EHandle k :: cs ++ EHandled k r :: EResume k r :: rest).

(** A sequential program: who has control and the open calls and handlers. *)
Inductive open := OFn (i b : Z) | OHandler (k : Z).
Inductive control :=
| InHost | InSandbox
| Requested (i b : Z) | Returned (i b : Z) | Asked (k : Z) | Answered (k r : Z).

Section Seq.
Variable host_do : list event -> hact.
Variable child_do : list event -> cact.

Inductive seq_step : list open * control * list event -> list open * control * list event -> Prop :=
| q_call st l i b : host_do l = HCall i b ->
    seq_step (st, InHost, l) (st, Requested i b, l ++ [EReq i b])
| q_invoke st l i b :
    seq_step (st, Requested i b, l) (OFn i b :: st, InSandbox, l ++ [EInvoke i b])
| q_callback st l i b k : child_do l = CCallback k ->
    seq_step (OFn i b :: st, InSandbox, l) (OFn i b :: st, Asked k, l ++ [ECallback k])
| q_handle st l k :
    seq_step (st, Asked k, l) (OHandler k :: st, InHost, l ++ [EHandle k])
| q_handled st l k r : host_do l = HReturn r ->
    seq_step (OHandler k :: st, InHost, l) (st, Answered k r, l ++ [EHandled k r])
| q_resume st l k r :
    seq_step (st, Answered k r, l) (st, InSandbox, l ++ [EResume k r])
| q_return st l i b : child_do l = CReturn ->
    seq_step (OFn i b :: st, InSandbox, l) (st, Returned i b, l ++ [EReturn i b])
| q_done st l i b :
    seq_step (st, Returned i b, l) (st, InHost, l ++ [EDone i b]).

Inductive seq (c0 : list open * control * list event) :
    list open * control * list event -> Prop :=
| seq_0 : seq c0 c0
| seq_next c c' : seq c0 c -> seq_step c c' -> seq c0 c'.
End Seq.

(** How many handlers are running. *)
Fixpoint handlers_open (st : list open) : Z :=
  match st with
  | [] => 0
  | OFn _ _ :: t => handlers_open t
  | OHandler _ :: t => handlers_open t + 1
  end.

(** No exported function was started. *)
Definition no_invoke (l : list event) : Prop := forall i b, ~ In (EInvoke i b) l.

(** The events of the callbacks made while loading, with their results. *)
Definition load_events (done : list (Z * Z)) : list event :=
  flat_map (fun '(k, r) => [ECallback k; EHandle k; EHandled k r; EResume k r]) done.

(** [ins i b m l]: [l] is [m] with the host's request of the first call inserted. *)
Definition ins (i b : Z) (m l : list event) : Prop :=
  exists l1 l2, m = l1 ++ l2 /\ l = l1 ++ EReq i b :: l2.

(** Where the sequential program starts once a library with loading callbacks
    [ks] is loaded: exactly those callbacks were served, in order; the host has
    not called yet or its first request came somewhere during loading. *)
Definition load_start (ks : list Z) (c0 : list open * control * list event) : Prop :=
  exists done, map fst done = ks /\
    (c0 = ([], InHost, load_events done)
     \/ exists i b l, c0 = ([], Requested i b, l) /\ ins i b (load_events done) l).

(** A complete history: the loading callbacks, then a sequence of complete,
    properly nested calls; the first request may have come during loading. *)
Definition complete (ks : list Z) (l : list event) : Prop :=
  exists done, map fst done = ks /\
    ((exists rest, l = load_events done ++ rest /\ calls rest)
     \/ exists l1 l2 i b rest, load_events done = l1 ++ l2 /\
          l = l1 ++ EReq i b :: l2 ++ rest /\ calls (EReq i b :: rest)).

(** States that differ only in where a waiting side is in its polling loop: the
    host re-arming its 100 ms wait, the sandbox re-checking whether to exit. *)
Definition settle (s : conf) : conf :=
  Conf (sh s) (match hpc s with HPoll i b d => HWait i b d | h => h end) (hstk s)
       (match cpc s with CWait d => CChk d | c => c end) (cstk s) (reqs s) (resps s) (log s).

(** Executions with the number of steps that are not polling. *)
Inductive costs (debug spurious : bool) (host_do : list event -> hact) (child_do : list event -> cact)
    (s : conf) : nat -> conf -> Prop :=
| costs_0 : costs debug spurious host_do child_do s 0 s
| costs_poll n s1 s2 : costs debug spurious host_do child_do s n s1 ->
    step debug spurious host_do child_do s1 s2 -> settle s1 = settle s2 ->
    costs debug spurious host_do child_do s n s2
| costs_step n s1 s2 : costs debug spurious host_do child_do s n s1 ->
    step debug spurious host_do child_do s1 s2 -> settle s1 <> settle s2 ->
    costs debug spurious host_do child_do s (S n) s2.

(** [inevitable P s]: from [s] every execution goes on until it meets [P]; none
    can stop or run forever without doing so. *)
Inductive inevitable (debug spurious : bool) (host_do : list event -> hact) (child_do : list event -> cact)
    (P : conf -> Prop) (s : conf) : Prop :=
| inev_now : P s -> inevitable debug spurious host_do child_do P s
| inev_later s' : step debug spurious host_do child_do s s' ->
    (forall s', step debug spurious host_do child_do s s' ->
                inevitable debug spurious host_do child_do P s') ->
    inevitable debug spurious host_do child_do P s.

(** How many calls the host started. *)
Definition requests (l : list event) : nat :=
  length (filter (fun e => match e with EReq _ _ => true | _ => false end) l).

(** Executions in which the sandbox takes no step. *)
Inductive host_alone (debug spurious : bool) (host_do : list event -> hact) (s0 : conf) : conf -> Prop :=
| alone_0 : host_alone debug spurious host_do s0 s0
| alone_step fail s s' : host_alone debug spurious host_do s0 s ->
    host_step debug spurious host_do fail s = Some s' -> host_alone debug spurious host_do s0 s'.
