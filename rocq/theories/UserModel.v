(** Model of a host process whose program also has handlers of its own
    (Library::register_callback, include/process_sandbox/sandbox.h 674,
    src/libsandbox.cc 751-755): while one runs, the program may do anything, so a
    request for it is two events, with any others between them.  Linux.  The rest
    is LibsModel's.  No proofs in this file. *)
From Coq Require Import String Ascii List ZArith Bool Arith.
From Verif Require Import Base FileTreeModel RegionModel DispatchModel HostCallsModel ChildCallsModel EffectsModel HandleModel OwnModel GateModel LibsModel.
Import ListNotations.
Local Open Scope Z_scope.

(** A handler that is running, as seen by CallbackDispatcher::handle
    (src/libsandbox.cc 661-681) below it on the stack: what invoke does once the
    callable is back (callbacks.h 146-173: the Handle that was not passed on goes),
    and whether the reply can be sent. *)
Record pending := Pending { p_later : list action; p_sends : bool }.

(** [disps]: the handlers of the CallbackDispatcher of each library (316, 686);
    [running]: its handlers that are running, the latest first: a handler may call
    into the sandbox, whose thread may ask again (935-990). *)
Record user := User { base : host; disps : nat -> dispatcher; running : nat -> list pending }.
Definition new_user : user := User new_host (fun _ => new_dispatcher tuple_size) (fun _ => []).

(** What happens: the program's own use of descriptors and exports, its network
    settings, register_callback with a handler for arguments of [size] bytes, which
    takes the descriptor or not (callbacks.h 132-199); a request arrives; the latest
    running handler of the library returns [n], with the descriptor of [who] in the
    Result (75-101); or it throws. *)
Inductive uop :=
| UDo (o : op)
| USet (o : netop) (p : policy)
| URegister (size : Z) (takes : bool)
| USays (q : request)
| UReturn (n : Z) (who : option nat)
| UThrow.
(** [UNumber]: what register_callback returns.  [UServed]: what was done.
    [UEntered tag bytes given kept]: the program's handler [tag] was called with
    these bytes; what it was given, and what came but was not passed on. *)
Inductive uresult :=
| UDid (r : OwnModel.result)
| UNoted
| UNumber (n : Z)
| UServed (es : list seen)
| UEntered (tag : Z) (bytes : list ascii) (given kept : option nat)
| UBroke.

(** The call of a handler of the program among the actions of invoke, with the
    actions after it.  The callables of the library are those numbered below
    FirstUserFunction (callback_numbers.h 22-78). *)
Fixpoint entered (l : list action) : option (Z * list ascii * option Z * list action) :=
  match l with
  | [] => None
  | AInvoke tag bytes fd :: r => if FirstUserFunction <=? tag then Some (tag, bytes, fd, r) else entered r
  | _ :: r => entered r
  end.

Definition refers (f : option Z) (k : list (Z * nat)) : option nat :=
  match f with Some n => lookup n k | None => None end.
Definition first_closed (l : list action) : option Z :=
  match l with AClose f :: _ => Some f | _ => None end.

(** The end of handle (677-680): the reply, or the end of the sandbox; then the
    Handle in the Result goes. *)
Definition finish (n : Z) (fd : option Z) (sends : bool) : list action :=
  (if sends then [AReply n fd] else [ATerminate]) ++ close_opt fd.

(** A request for which no handler of the program runs; used for its [q_kernel]
    only. *)
Definition no_request (q : kernel) : request :=
  Request None [] true q (fun _ _ => Ascii.zero) (fun _ _ => Ascii.zero) (fun _ _ => Ascii.zero) (fun _ => 0) (fun _ => []) (fun _ => 0).
Definition still : kernel := fun _ _ => (0, 0).

(** One event of library [i].  register_callback: 691-697; the callable is called
    by the number it gets.  Simplifications: what a handler's end does (close,
    reply, close) is one event, although other threads may run in between (ParModel
    takes such steps one by one); the handlers of the network settings are as in
    GateModel. *)
Definition ustep (debug : bool) (heaps : nat -> heap) (i : nat) (o : uop) (w : user) : user * uresult :=
  let g := lib (base w) i in
  let d := disps w i in
  let put s := after (base w) i (Gate s (net g)) in
  match o with
  | UDo o => let '(s, r) := step debug o (own g) in (User (put s) (disps w) (running w), UDid r)
  | USet o p => (User (after (base w) i (Gate (own g) (set_policy (net g) o p))) (disps w) (running w), UNoted)
  | URegister size takes =>
      let '(n, d') := register_callback d (SFn (d_next d) size takes) in
      (User (base w) (upd (disps w) i d') (running w), UNumber n)
  | USays q =>
      match tree (own g) with
      | None => (w, UNoted)                       (* no library, no requests *)
      | Some t =>
          let fn := builtin_result (q_kernel q) t (net g) (heaps i) (q_mem1 q) (q_mem2 q) (q_hints q) (q_resolver q) (q_alloc q) in
          let s := receive q (own g) in
          match (match q_msg q with
                 | Some (rq, fd) => entered (snd (fst (select_handler d (heaps i) fn (q_args q) rq fd)))
                 | None => None
                 end) with
          | Some (tag, bytes, given, later) =>
              (User (put s) (disps w) (upd (running w) i (Pending later (q_sends q) :: running w i)),
               UEntered tag bytes (refers given (kern s)) (refers (first_closed later) (kern s)))
          | None =>
              match act debug (heaps i) t (net g) q [] (DispatchModel.handle d (heaps i) fn (q_args q) (q_msg q) (q_sends q)) s with
              | Ret (s, es) => (User (put s) (disps w) (running w), UServed es)
              | _ => (w, UBroke)
              end
          end
      end
  | UReturn n who =>
      match running w i with
      | [] => (w, UNoted)
      | p :: rest =>
          let fd := option_map (fun u => number u (kern (own g))) who in
          match act debug (heaps i) [] (net g) (no_request still) [] (p_later p ++ finish n fd (p_sends p)) (own g) with
          | Ret (s, es) => (User (put s) (disps w) (upd (running w) i rest), UServed es)
          | _ => (w, UBroke)
          end
      end
  | UThrow =>
      match running w i with
      | [] => (w, UNoted)
      | p :: rest =>
          match act debug (heaps i) [] (net g) (no_request still) [] (p_later p) (own g) with
          | Ret (s, es) => (User (put s) (disps w) (upd (running w) i rest), UServed es)
          | _ => (w, UBroke)
          end
      end
  end.
