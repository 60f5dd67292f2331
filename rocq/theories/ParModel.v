(** Model of one host process with any number of Library objects, each used by a
    thread of its own: the requests of different libraries are served at the same
    time, their system calls in any order.  Built from LibsModel and GateModel.  No
    proofs in this file. *)
From Coq Require Import List ZArith Bool Arith.
From Verif Require Import Base FileTreeModel RegionModel DispatchModel HostCallsModel ChildCallsModel EffectsModel
  HandleModel OwnModel GateModel LibsModel.
Import ListNotations.
Local Open Scope Z_scope.

(** What a thread that serves a request does to the rest of the process, one step
    at a time: a system call with the kernel's answer, the reply, killing the
    child. *)
Inductive micro := MAsk (o : kop) (r : Z * Z) | MReply (i : Z) (fd : option Z) | MKill.
Fixpoint asking (k : kernel) (before ops : list kop) : list micro :=
  match ops with
  | [] => []
  | o :: r => MAsk o (k before o) :: asking k (before ++ [o]) r
  end.

(** The steps of CallbackDispatcher::handle (src/libsandbox.cc 661-681) and the
    handler it calls, as [GateModel.act] without the table.  The thread's own work
    (copying arguments, looking up the path in the tree of its library, the policy)
    is done at once, when the request is received: nobody else may change the tree
    or the policy while the request is served, and what the sandbox's memory holds
    at each read is [q_args], [q_mem1], [q_mem2] and [q_hints], as in GateModel. *)
Fixpoint script (h : heap) (t : FileTreeModel.dir) (np : netpolicy) (q : request) (before : list kop) (l : list action)
  : outcome (list micro) :=
  match l with
  | [] => Ret []
  | a :: r =>
      obind (match a with
             | ALoad _ => Ret ([], before)
             | AInvoke tag bytes given =>
                 obind (run_builtin (q_kernel q) t np h (q_mem1 q) (q_mem2 q) (q_hints q) (q_resolver q) (q_alloc q) tag bytes given)
                   (fun '(_, e) => Ret (asking (q_kernel q) before (e_ops e), before ++ e_ops e))
             | AClose f => Ret ([MAsk (KClose f) (q_kernel q before (KClose f))], before ++ [KClose f])
             | AReply i f => Ret ([MReply i f], before)
             | ATerminate => Ret ([MKill], before)
             end)
        (fun '(m, before1) => obind (script h t np q before1 r) (fun m2 => Ret (m ++ m2)))
  end.

(** One of them. *)
Definition micro_step (debug : bool) (m : micro) (s : state) : outcome (state * seen) :=
  match m with
  | MAsk o r => asks debug r o s
  | MReply i f => Ret (s, Replied i (option_map (fun n => lookup n (kern s)) f))
  | MKill => Ret (s, Killed)
  end.

(** The process, and what the thread of each library has still to do. *)
Record par := Par { now : host; todo : nat -> list micro }.
Definition new_par : par := Par new_host (fun _ => []).

(** One event: the program opens, exports, closes, or makes a network setting; the
    thread that waits for a library receives a request (src/libsandbox.cc 935-990); it
    takes its next step. *)
Inductive pop := PHost (o : op) | PSet (o : netop) (p : policy) | PBegin (q : request) | PNext.
Inductive presult := PDid (r : OwnModel.result) | PNoted | PBegun (got : option nat) | PSeen (e : seen) | PBroke.

Definition pstep (debug : bool) (heaps : nat -> heap) (i : nat) (o : pop) (w : par) : par * presult :=
  let g := lib (now w) i in
  match o with
  | PHost o => let '(s, r) := step debug o (own g) in (Par (after (now w) i (Gate s (net g))) (todo w), PDid r)
  | PSet o p => (Par (after (now w) i (Gate (own g) (set_policy (net g) o p))) (todo w), PNoted)
  | PBegin q =>
      match tree (own g) with
      | None => (w, PNoted)
      | Some t =>
          match script (heaps i) t (net g) q []
                  (DispatchModel.handle (new_dispatcher tuple_size) (heaps i)
                     (builtin_result (q_kernel q) t (net g) (heaps i) (q_mem1 q) (q_mem2 q) (q_hints q) (q_resolver q) (q_alloc q))
                     (q_args q) (q_msg q) (q_sends q)) with
          | Ret l =>
              let s := receive q (own g) in
              (Par (after (now w) i (Gate s (net g))) (upd (todo w) i l),
               PBegun (match q_msg q with Some (_, Some n) => lookup n (kern s) | _ => None end))
          | _ => (w, PBroke)
          end
      end
  | PNext =>
      match todo w i with
      | [] => (w, PNoted)
      | m :: l =>
          match micro_step debug m (own g) with
          | Ret (s, e) => (Par (after (now w) i (Gate s (net g))) (upd (todo w) i l), PSeen e)
          | _ => (w, PBroke)
          end
      end
  end.
