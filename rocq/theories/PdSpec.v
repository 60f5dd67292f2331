(** What a user of the API expects of process status on FreeBSD, in terms of the
    processes themselves (vocabulary of ProcSpec.v). *)
From Coq Require Import List ZArith Bool.
From Verif Require Import ProcModel ProcSpec PdModel.
Import ListNotations.
Open Scope Z_scope.

Definition pspec_step (o : pop) (w : world) : world * res :=
  match o with
  | PFork | PForkFails _ => (w ++ [None], RDone)
  | PNoQueue => (w, RExit)
  | PExits i raw => (ends i raw w, RDone)
  | PQuery i _ => (w, report (state_of w i))
  | PWaitFor i _ => (w, match state_of w i with None => RBlocked | x => report x end)
  | PTerminate i _ | PRawTerminate i | PDestroy i => (ends i SIGKILL w, RDone)
  end.
Fixpoint pspec_run (os : list pop) (w : world) : world * list res :=
  match os with
  | [] => (w, [])
  | o :: t => let (w1, r) := pspec_step o w in let (w2, rs) := pspec_run t w1 in (w2, r :: rs)
  end.

(** Histories in which every pdfork succeeds and no library is used after its
    destruction. *)
Definition about (i : nat) (o : pop) : Prop :=
  match o with PQuery j _ | PWaitFor j _ | PTerminate j _ | PRawTerminate j | PDestroy j => j = i | _ => False end.
Definition pproper (os : list pop) : Prop :=
  (forall o, In o os -> match o with PForkFails _ => False | _ => True end) /\
  (forall os1 i os2 o, os = os1 ++ PDestroy i :: os2 -> In o os2 -> ~ about i o).

(** How many kevent calls were made for a library. *)
Definition kevents (i : nat) (t : list pcall) : nat :=
  length (filter (fun c => match c with PTKevent j => Nat.eqb i j | _ => false end) t).
