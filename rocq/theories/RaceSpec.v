(** Happens-before for the two processes that share
    include/process_sandbox/shared_memory_region.h, as the C++ standard defines
    it, over the executions of ThrowModel.v with a sandbox that may die.
    Accesses to fields that are std::atomic are not races (RaceModel.v).
    What a move of one side depends on is not listed by hand, it is read off the
    steps: a move uses a field if it is not the same move for every value of the
    field. *)
From Coq Require Import List ZArith Bool.
From Verif Require Import ProtoModel ThrowModel RaceModel.
Import ListNotations.
Open Scope Z_scope.

Inductive side := Host | Sandbox.
Record move := Move { by_ : side; pre : conf; post : conf }.

Section Race.
Variable debug spurious : bool.
Variable host_do : list event -> xact.
Variable child_do : list event -> cact.

(** One side can go from [s] to [s'].  The sandbox can also die. *)
Definition can (w : side) (s s' : conf) : Prop :=
  match w with
  | Host => exists fail, xhost_step debug spurious host_do fail s = Some s'
  | Sandbox => (exists fail, child_step debug child_do fail s = Some s') \/ gone (cpc s) = false /\ s' = child_dies s
  end.
Inductive exec (s0 : conf) : list move -> conf -> Prop :=
| exec_0 : exec s0 [] s0
| exec_move es s w s' : exec s0 es s -> can w s s' -> exec s0 (es ++ [Move w s s']) s'.

(** ** Uses of plain memory and of user code *)
Definition poke (p : field) (v : Z) (s : conf) : conf :=
  Conf (put_field p v (sh s)) (hpc s) (hstk s) (cpc s) (cstk s) (reqs s) (resps s) (log s).
Definition uses (p : field) (m : move) : Prop :=
  ~ forall v, can (by_ m) (poke p v (pre m)) (poke p v (post m)).

(** The move is one of user code, or starts or ends some: an event other than
    those in [except] happens. *)
Definition acts (except : event -> Prop) (m : move) : Prop :=
  exists e, log (post m) = log (pre m) ++ [e] /\ ~ except e.

(** ** Synchronisation *)
Inductive channel := ToSandbox | ToHost | Ready | Exit.
Definition sends (c : channel) (m : move) : Prop :=
  match c with
  | ToSandbox => by_ m = Host /\ cflag (sh (pre m)) = 0 /\ cflag (sh (post m)) = 1
  | ToHost => by_ m = Sandbox /\ pflag (sh (pre m)) = 0 /\ pflag (sh (post m)) = 1
  | Ready => by_ m = Sandbox /\ loaded (sh (pre m)) = false /\ loaded (sh (post m)) = true
  | Exit => by_ m = Sandbox /\ gone (cpc (pre m)) = false /\ gone (cpc (post m)) = true
  end.
Definition unload (s : conf) : conf :=
  Conf (set_loaded false (sh s)) (hpc s) (hstk s) (cpc s) (cstk s) (reqs s) (resps s) (log s).
Definition at_child (p : cstate) (s : conf) : conf :=
  Conf (sh s) (hpc s) (hstk s) p (cstk s) (reqs s) (resps s) (log s).
(** A token is taken; the host finds that the sandbox has loaded; the host is
    told that the process has ended (it would not have made this move had the
    flag been false, or the process alive). *)
Definition receives (c : channel) (m : move) : Prop :=
  match c with
  | ToSandbox => by_ m = Sandbox /\ cflag (sh (pre m)) = 1 /\ cflag (sh (post m)) = 0
  | ToHost => by_ m = Host /\ pflag (sh (pre m)) = 1 /\ pflag (sh (post m)) = 0
  | Ready => by_ m = Host /\ loaded (sh (pre m)) = true /\ ~ can Host (unload (pre m)) (unload (post m))
  | Exit => by_ m = Host /\ gone (cpc (pre m)) = true /\
      forall p, gone p = false -> ~ can Host (at_child p (pre m)) (at_child p (post m))
  end.

(** The orders that make a write visible, and a read see it. *)
Definition releasing (o : order) : Prop := match o with Release | AcqRel | SeqCst => True | _ => False end.
Definition acquiring (o : order) : Prop := match o with Acquire | AcqRel | SeqCst => True | _ => False end.
(** The end of a process, and being told of it, are the kernel's. *)
Definition synchronises (c : channel) : Prop :=
  match c with
  | ToSandbox | ToHost => releasing wake_order /\ acquiring take_order
  | Ready => releasing loaded_store /\ acquiring loaded_load
  | Exit => True
  end.

(** Happens-before: the order of each side's own moves, and from each send to a
    move that receives what was sent last. *)
Inductive hb (es : list move) : nat -> nat -> Prop :=
| hb_same i j m n : (i < j)%nat -> nth_error es i = Some m -> nth_error es j = Some n -> by_ m = by_ n -> hb es i j
| hb_sync c i j m n : (i < j)%nat -> nth_error es i = Some m -> nth_error es j = Some n ->
    sends c m -> receives c n -> synchronises c ->
    (forall k x, (i < k < j)%nat -> nth_error es k = Some x -> ~ sends c x) -> hb es i j
| hb_trans i j k : hb es i j -> hb es j k -> hb es i k.

(** Two moves of different sides of which neither happens before the other. *)
Definition unordered (es : list move) (i j : nat) : Prop :=
  (exists m n, nth_error es i = Some m /\ nth_error es j = Some n /\ by_ m <> by_ n) /\ ~ hb es i j /\ ~ hb es j i.
End Race.

(** What the host's program does of its own accord. *)
Definition host_starts (e : event) : Prop :=
  match e with EReq _ _ | EQuit => True | _ => False end.
Definition nothing (e : event) : Prop := False.
