(** Model of the descriptor wrapper Handle (include/process_sandbox/platform/
    platform.h 34-140) over a kernel descriptor table.  Each open descriptor has
    an identity besides its number: the kernel may reuse a number after a close
    but an identity only ever stands for one open.  No proofs in this file. *)
From Coq Require Import List ZArith Bool Arith.
Import ListNotations.
Open Scope Z_scope.

(** One close(2): which Handle asked for it ([None]: the program itself, not
    through a Handle), the number, and the identity that went away ([None]: the
    number was not open, EBADF). *)
Inductive event := TClose (who : option nat) (n : Z) (u : option nat).

(** [objs]: the Handle objects ever made, [None] once destroyed, otherwise the
    fd field (44); [kern]: the open descriptors; [next]: the next identity. *)
Record state := St { objs : list (option Z); kern : list (Z * nat); next : nat; trace : list event }.
Definition init : state := St [] [] 0%nat [].

Fixpoint lookup (n : Z) (k : list (Z * nat)) : option nat :=
  match k with
  | [] => None
  | (m, u) :: r => if m =? n then Some u else lookup n r
  end.
Fixpoint drop (n : Z) (k : list (Z * nat)) : list (Z * nat) :=
  match k with
  | [] => []
  | (m, u) :: r => if m =? n then r else (m, u) :: drop n r
  end.
Fixpoint upd (i : nat) (x : option Z) (l : list (option Z)) : list (option Z) :=
  match i, l with
  | _, [] => []
  | O, _ :: r => x :: r
  | S i, y :: r => y :: upd i x r
  end.
Definition fd (s : state) (i : nat) : option Z := nth i (objs s) None.
Definition put (i : nat) (x : option Z) (s : state) : state := St (upd i x (objs s)) (kern s) (next s) (trace s).
(** close(2) *)
Definition close (who : option nat) (n : Z) (s : state) : state :=
  St (objs s) (drop n (kern s)) (next s) (trace s ++ [TClose who n (lookup n (kern s))]).

(** What an operation gives back.  [RAbort]: the assertion in is_valid failed
    (debug builds only). *)
Inductive result := RDone | RNum (n : Z) | RBool (b : bool) | RAbort.

(** is_valid, 58-65. *)
Definition is_valid (debug : bool) (n : Z) (s : state) : option bool :=
  if debug && negb ((n <? 0) || match lookup n (kern s) with Some _ => true | None => false end)
  then None else Some (0 <=? n).

(** reset, 66-73; the caller is object [i] with field [n]. *)
Definition reset (debug : bool) (i : nat) (n new : Z) (s : state) : option state :=
  match is_valid debug n s with
  | None => None
  | Some b => Some (put i (Some new) (if b then close (Some i) n s else s))
  end.

Inductive op :=
| Open (n : Z)              (* the program obtains a descriptor; the kernel picks n *)
| RawClose (n : Z)          (* the program closes a number itself *)
| Default                   (* 75 *)
| Construct (n : Z)         (* 81 *)
| MoveCtor (j : nat)        (* 94-97 *)
| MoveAssign (i j : nat)    (* 99-104; j may be i *)
| AssignRaw (i : nat) (n : Z) (* 106-110, and the public reset *)
| Take (i : nat)            (* 127-132 *)
| IsValid (i : nat)         (* 58-65 *)
| Destroy (i : nat).        (* 137-140 *)

Definition step (debug : bool) (o : op) (s : state) : state * result :=
  match o with
  | Open n => (St (objs s) (kern s ++ [(n, next s)]) (S (next s)) (trace s), RNum n)
  | RawClose n => (close None n s, RDone)
  | Default => (St (objs s ++ [Some (-1)]) (kern s) (next s) (trace s), RDone)
  | Construct n => (St (objs s ++ [Some n]) (kern s) (next s) (trace s), RDone)
  | MoveCtor j =>
    match fd s j with
    | None => (s, RDone)
    | Some n => let s1 := put j (Some (-1)) s in (St (objs s1 ++ [Some n]) (kern s1) (next s1) (trace s1), RDone)
    end
  | MoveAssign i j =>
    match fd s i, fd s j with
    | Some n, Some m =>
      match reset debug i n m s with None => (s, RAbort) | Some s1 => (put j (Some (-1)) s1, RDone) end
    | _, _ => (s, RDone)
    end
  | AssignRaw i m =>
    match fd s i with
    | None => (s, RDone)
    | Some n => match reset debug i n m s with None => (s, RAbort) | Some s1 => (s1, RDone) end
    end
  | Take i =>
    match fd s i with None => (s, RDone) | Some n => (put i (Some (-1)) s, RNum n) end
  | IsValid i =>
    match fd s i with
    | None => (s, RDone)
    | Some n => match is_valid debug n s with None => (s, RAbort) | Some b => (s, RBool b) end
    end
  | Destroy i =>
    match fd s i with
    | None => (s, RDone)
    | Some n => match reset debug i n (-1) s with None => (s, RAbort) | Some s1 => (put i None s1, RDone) end
    end
  end.

(** Only live objects are used (C++ object lifetime), and the kernel hands out
    numbers that are not open. *)
Definition live (s : state) (i : nat) : Prop := fd s i <> None.
Definition possible (o : op) (s : state) : Prop :=
  match o with
  | Open n => 0 <= n /\ lookup n (kern s) = None
  | RawClose _ | Default | Construct _ => True
  | MoveCtor i | AssignRaw i _ | Take i | IsValid i | Destroy i => live s i
  | MoveAssign i j => live s i /\ live s j
  end.
Inductive runs (debug : bool) : list (op * result) -> state -> Prop :=
| runs_0 : runs debug [] init
| runs_snoc es s o s' r : runs debug es s -> possible o s -> step debug o s = (s', r) -> runs debug (es ++ [(o, r)]) s'.
