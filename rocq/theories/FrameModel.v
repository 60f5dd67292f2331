(** Model of the memory accesses of one call of a Function object:
    argframe (include/process_sandbox/cxxsandbox.h 24-38), Function::operator()
    (99-119), ExportedFunction::operator() (176-189), Library::alloc<T>()
    (include/process_sandbox/sandbox.h 690-704) and the type check in Function's
    constructor of debug builds (82-94).  VtableModel.v has the choice of the
    function and the life of the frame; here is what is stored and loaded.
    No proofs in this file. *)
From Coq Require Import List ZArith Bool.
Import ListNotations.
Open Scope Z_scope.

(** Where the compiler puts the return value and the arguments in an argframe
    (offset, length); the same compiler is used on both sides. *)
Record layout := Layout { l_size : Z; l_ret : Z * nat; l_args : list (Z * nat) }.

Definition memory := Z -> Z.
Definition setb (m : memory) (a v : Z) : memory := fun x => if x =? a then v else m x.

(** Accesses of the host to the sandbox's memory, byte by byte. *)
Inductive access := Wr (a v : Z) | Rd (a v : Z).

(** The bytes of a value stored at an address. *)
Fixpoint at_addr (a : Z) (bs : list Z) : list (Z * Z) :=
  match bs with [] => [] | b :: r => (a, b) :: at_addr (a + 1) r end.

(** The sandbox runs in parallel: before the host's [k]-th access it changes the
    memory as it likes, by [adv k]. *)
Section CALL.
Variable adv : nat -> memory -> memory.

Fixpoint stores (k : nat) (m : memory) (l : list (Z * Z)) : nat * memory * list access :=
  match l with
  | [] => (k, m, [])
  | (a, v) :: r =>
    let '(k', m', t) := stores (S k) (setb (adv k m) a v) r in (k', m', Wr a v :: t)
  end.
Fixpoint loads (k : nat) (m : memory) (a : Z) (n : nat) : list Z * nat * memory * list access :=
  match n with
  | O => ([], k, m, [])
  | S n =>
    let m := adv k m in
    let '(bs, k', m', t) := loads (S k) m (a + 1) n in (m a :: bs, k', m', Rd a (m a) :: t)
  end.

(** 103-118.  The frame is value-initialised when it is allocated (sandbox.h 703),
    then the arguments are copied in (109), the sandbox gets control (110: [send],
    what it does to the memory), and the return value is read (113). *)
Definition frame_stores (p : Z) (L : layout) (args : list (list Z)) : list (Z * Z) :=
  at_addr p (repeat 0 (Z.to_nat (l_size L))) ++
  flat_map (fun '((off, _), bs) => at_addr (p + off) bs) (combine (l_args L) args).
Definition call (send : memory -> memory) (p : Z) (L : layout) (args : list (list Z)) (m : memory) :
    list Z * memory * list access :=
  let '(k, m1, t1) := stores 0 m (frame_stores p L args) in
  let m2 := send m1 in
  let '(r, _, m3, t2) := loads k m2 (p + fst (l_ret L)) (snd (l_ret L)) in
  (r, m3, t1 ++ t2).
End CALL.

(** The sandbox's side, 176-189: read the arguments from the frame, apply the
    function, store what it returns.  [f] also gives the new values of the frame's
    copies of the arguments: a function that takes references works on these. *)
Fixpoint bytes_at (m : memory) (a : Z) (n : nat) : list Z :=
  match n with O => [] | S n => m a :: bytes_at m (a + 1) n end.
Definition put_bytes (m : memory) (l : list (Z * Z)) : memory := fold_left (fun m '(a, v) => setb m a v) l m.
Definition run_function (f : list (list Z) -> list Z * list (list Z)) (p : Z) (L : layout) (m : memory) : memory :=
  let args := map (fun '(off, n) => bytes_at m (p + off) n) (l_args L) in
  let (ret, args') := f args in
  put_bytes (put_bytes m (flat_map (fun '((off, _), bs) => at_addr (p + off) bs) (combine (l_args L) args')))
            (at_addr (p + fst (l_ret L)) ret).

(** The host's variables the call was made with: arguments are copied into the
    frame (37: references are stripped), and nothing is copied back. *)
Definition call_with_variables (adv : nat -> memory -> memory) send p L (vars : list (list Z)) (m : memory) : list Z * list (list Z) :=
  let '(r, _, _) := call adv send p L vars m in (r, vars).

(** The type check of the constructor, 85-93: strcmp of the pointer the sandbox
    returned with the host's type name; [see k] is the byte found [k] bytes
    after it.  The result, and how many bytes were read.  [name] ends with its
    terminating zero. *)
Inductive checked := CheckPassed | HostExit.
Fixpoint strcmp_from (see : nat -> Z) (k : nat) (name : list Z) : bool * nat :=
  match name with
  | [] => (true, k)
  | c :: r => if see k =? c then (if c =? 0 then (true, S k) else strcmp_from see (S k) r) else (false, S k)
  end.
(** The check, with the addresses read and the addresses handed to [free]. *)
Definition type_check (see : nat -> Z) (ptr : Z) (name : list Z) : checked * list Z * list Z :=
  if ptr =? 0 then (HostExit, [], [])
  else let (same, n) := strcmp_from see 0 name in
       let read := map (fun k => ptr + Z.of_nat k) (seq 0 n) in
       if same then (CheckPassed, read, [ptr]) else (HostExit, read, []).
