(** What a user of the API expects of process status: each library owns one
    process, which runs or has ended with some raw status. *)
From Coq Require Import List ZArith Bool.
From Verif Require Import ProcModel.
Import ListNotations.
Open Scope Z_scope.

(** One entry per library, in order of creation; [Some raw] once it has ended. *)
Definition world := list (option Z).

Definition report (x : option Z) : res :=
  match x with
  | Some raw => RStatus true (raw / 256 mod 256)
  | None => RStatus false 0
  end.
(** Process i ends with this status, unless it had ended before. *)
Fixpoint ends (i : nat) (raw : Z) (w : world) : world :=
  match w, i with
  | [], _ => []
  | x :: t, O => Some (match x with None => raw | Some r => r end) :: t
  | x :: t, S j => x :: ends j raw t
  end.
Definition state_of (w : world) (i : nat) : option Z := nth i w None.

(** Operations in terms of the processes themselves. *)
Definition spec_step (o : op) (w : world) : world * res :=
  match o with
  | Fork _ | ForkFails => (w ++ [None], RDone)
  | Exits i raw => (ends i raw w, RDone)
  | Query i _ _ => (w, report (state_of w i))
  | WaitFor i _ _ => (w, match state_of w i with None => RBlocked | x => report x end)
  | Terminate i _ _ | RawTerminate i => (ends i SIGKILL w, RDone)
  end.
Fixpoint spec_run (os : list op) (w : world) : world * list res :=
  match os with
  | [] => (w, [])
  | o :: t => let (w1, r) := spec_step o w in let (w2, rs) := spec_run t w1 in (w2, r :: rs)
  end.

(** Sequences in which every fork succeeds and processes are terminated through
    the Library. *)
Definition proper (o : op) : Prop :=
  match o with ForkFails | RawTerminate _ => False | _ => True end.

(** The children reaped, and how often, according to the record of system calls. *)
Definition reaps (t : list kcall) : list nat :=
  flat_map (fun c => match c with TReap _ u => [u] | _ => [] end) t.
(** How many waitpid(2) calls were made for a library. *)
Definition waits (i : nat) (t : list kcall) : nat :=
  length (filter (fun c => match c with TWait j => Nat.eqb i j | _ => false end) t).
