(** Model of one host process with any number of Library objects.  Each has its
    own exported tree and network policy; the process has one descriptor table.
    What a library does with these is GateModel's.  No proofs in this file. *)
From Coq Require Import List ZArith Bool Arith.
From Verif Require Import Base FileTreeModel RegionModel DispatchModel HostCallsModel HandleModel OwnModel GateModel.
Import ListNotations.

(** [trees] and [policies]: the members [vfs] and [netpolicy] of the
    CallbackDispatcher of each Library (src/libsandbox.cc 305-310, 741-749; a
    Library makes one for itself, 870).  Libraries are numbered, whenever they are
    made; one that is not made yet has an empty tree and no settings, as one just
    made (what its constructor exports, 700-719, are [Add]s).  The rest is the
    process's. *)
Record host := Libs {
  trees : nat -> option FileTreeModel.dir; policies : nat -> netpolicy;
  table : list (Z * nat); fresh : nat; closed : list (Z * option nat) }.
Definition new_host : host := Libs (fun _ => Some []) (fun _ => new_netpolicy) [] 0 [].

(** What library [i] works on, and the process after it has. *)
Definition lib (w : host) (i : nat) : gate := Gate (St (trees w i) (table w) (fresh w) (closed w)) (policies w i).
Definition upd {A} (f : nat -> A) (i : nat) (a : A) : nat -> A := fun j => if Nat.eqb j i then a else f j.
Definition after (w : host) (i : nat) (g : gate) : host :=
  Libs (upd (trees w) i (tree (own g))) (upd (policies w) i (net g)) (kern (own g)) (next (own g)) (closes (own g)).

(** One event.  [heaps i]: the shared region of library [i].  [Open] and [Close]
    are the program's and the same for every [i].  A request is served by the
    thread that waits for the library (src/libsandbox.cc 935-990); the model takes
    requests of different libraries one after the other (ParModel: at the same
    time). *)
Definition lstep (debug : bool) (heaps : nat -> heap) (i : nat) (o : gop) (w : host) : host * gresult :=
  let '(g, r) := gstep debug (heaps i) o (lib w i) in (after w i g, r).
