(** Model of the descriptors that Library objects use for themselves, from their
    construction to the end of the process, on the descriptor table of UserModel.
    Linux.  No proofs in this file. *)
From Coq Require Import List ZArith Bool Arith.
From Verif Require Import Base FileTreeModel RegionModel HandleModel OwnModel GateModel LibsModel UserModel.
Import ListNotations.
Local Open Scope Z_scope.

(** [sockets]: the member [socket] of the CallbackDispatcher of each library that
    exists (src/libsandbox.cc 325); [ranges]: the socket in the memory service's map
    that belongs to each library (102-105).  The Handle in the SharedMemoryMap of a
    running library is empty, as are those of the sandbox's ends of the two socket
    pairs: start_child runs in the host's memory and takes the numbers out of them
    (809-829, FdModel.start_child). *)
Record life := Life { process : user; sockets : nat -> option nat; ranges : nat -> option nat }.
Definition new_life : life := Life new_user (fun _ => None) (fun _ => None).

(** What happens: anything in UserModel; the constructor of a library, whose
    library file exists (881-932); the destructor (757-788); the memory service drops
    a library, because the other end of the socket is gone or what came over it is
    not a whole request (115-150). *)
Inductive lop := LUser (o : uop) | LStart (shm rpc rpc_child sock sock_child : Z) | LStop | LForget.
(** [LStarted]: what the descriptors of a library refer to: the shared memory, the
    host's and the sandbox's end of the first socket pair, the host's and the
    sandbox's end of the second. *)
Inductive lresult :=
| LUsed (r : uresult)
| LStarted (shm rpc rpc_child sock sock_child : nat)
| LStopped
| LForgot
| LNothing
| LBroke.

(** The kernel opens something. *)
Definition opening (debug : bool) (heaps : nat -> heap) (i : nat) (n : Z) (w : user) : user * nat :=
  match ustep debug heaps i (UDo (Open n)) w with
  | (w', UDid (Opened u)) => (w', u)
  | (w', _) => (w', O)
  end.

(** One event.  The constructor: shm_posix.h 123 and 865-867 for the shared memory;
    881 and 886, whose first ends go to the memory service (882-883, 75-87) and to the
    dispatcher (922); the Handles of the second ends are destroyed when it returns,
    but they are empty.  What the constructor exports (700-719) are [Add]s of the
    program; they come between these, which the model takes together.  The
    destructor: ~CallbackDispatcher, last member first (305-325), then ~SharedMemoryMap,
    whose Handle is empty; there is no descriptor for the child process
    (child_process_vfork.h).  Not included: the pagemap's descriptor and the one of the
    memory service's Poller, which are opened once and which the process keeps; a
    library file that does not open (FdModel). *)
Definition lifestep (debug : bool) (heaps : nat -> heap) (i : nat) (o : lop) (w : life) : life * lresult :=
  match o with
  | LUser o => let '(u, r) := ustep debug heaps i o (process w) in (Life u (sockets w) (ranges w), LUsed r)
  | LStart n1 n2 n3 n4 n5 =>
      let '(u, shm) := opening debug heaps i n1 (process w) in
      let '(u, rpc) := opening debug heaps i n2 u in
      let '(u, rpc_child) := opening debug heaps i n3 u in
      let '(u, sock) := opening debug heaps i n4 u in
      let '(u, sock_child) := opening debug heaps i n5 u in
      (Life u (upd (sockets w) i (Some sock)) (upd (ranges w) i (Some rpc)), LStarted shm rpc rpc_child sock sock_child)
  | LStop =>
      match sockets w i with
      | None => (w, LNothing)
      | Some s =>
          let '(u, r) := ustep debug heaps i (UDo (Close s)) (process w) in
          let '(u, r') := ustep debug heaps i (UDo Drop) u in
          (Life u (upd (sockets w) i None) (ranges w),
           match r, r' with UDid Done, UDid Done => LStopped | _, _ => LBroke end)
      end
  | LForget =>
      match ranges w i with
      | None => (w, LNothing)
      | Some s =>
          let '(u, r) := ustep debug heaps i (UDo (Close s)) (process w) in
          (Life u (sockets w) (upd (ranges w) i None), match r with UDid Done => LForgot | _ => LBroke end)
      end
  end.
