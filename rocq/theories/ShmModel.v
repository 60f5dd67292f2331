(** The creation of shared memory objects
    (include/process_sandbox/platform/shm_posix.h 37-157 and 203-210), by any
    number of processes that share one namespace of such objects with programs
    that are not part of this library.

    Simplified: objects are numbered in the order in which they come into being;
    a process creates one object (several creations of one process are several
    processes here); asprintf does not fail (the check of 82-86 ends the process
    otherwise). *)
From Coq Require Import String Ascii List ZArith Lia Bool.
From Verif Require Import Base CheckModel MapModel.
Import ListNotations.
Open Scope Z_scope.

(** asprintf(&name_raw, "/verona_sandbox_alloc_%lx", random()), 81. *)
Definition shm_name (r : Z) : text := tx "/verona_sandbox_alloc_" ++ hex r.

(** Which of the three classes of 50-157 a process uses. *)
Inductive way := Posix | MemFd | ShmAnon.

(** Where a process is: before its first system call; in the loop of 75-100;
    between shm_open (98) and shm_unlink (105), with the name and the object; at
    the end of the constructor, with the object or an invalid descriptor; ended. *)
Inductive phase :=
| Idle (w : way)
| Choosing
| Window (n : text) (o : nat)
| Done (fd : option nat)
| Ended.

(** Who has an object open: one of the processes, or somebody else. *)
Inductive party := Host (p : nat) | Outsider.

Record shm := Shm {
  names : list (text * nat);     (* the namespace *)
  next : nat;                    (* the number of the next object *)
  who : nat -> phase;
  holds : list (party * nat) }.

Definition lookup (n : text) (l : list (text * nat)) : option nat :=
  option_map snd (find (fun x => text_eqb (fst x) n) l).
Definition remove (n : text) (l : list (text * nat)) : list (text * nat) :=
  filter (fun x => negb (text_eqb (fst x) n)) l.
Definition set_phase (f : nat -> phase) (p : nat) (x : phase) : nat -> phase :=
  fun q => if Nat.eqb q p then x else f q.
Definition is_host (p : nat) (x : party) : bool :=
  match x with Host q => Nat.eqb q p | Outsider => false end.

Inductive op :=
| Begin (p : nat) (works : bool)          (* the first system call of the class; it works or fails *)
| Try (p : nat) (r : Z) (fails : bool)    (* once around the loop, random() = r; fails: another error than EEXIST *)
| Unlink (p : nat)
| Crash (p : nat)
| OtherCreate (n : text)                  (* other programs *)
| OtherOpen (n : text)
| OtherRemove (n : text).

(** A new object without a name, held by process [p]. *)
Definition anonymous (p : nat) (s : shm) : shm :=
  Shm (names s) (S (next s)) (set_phase (who s) p (Done (Some (next s)))) ((Host p, next s) :: holds s).

Definition step (o : op) (s : shm) : option shm :=
  match o with
  | Begin p works =>
    match who s p with
    | Idle Posix => Some (Shm (names s) (next s) (set_phase (who s) p Choosing) (holds s))
    | Idle MemFd =>                                                     (* 123-132 *)
      Some (if works then anonymous p s
            else Shm (names s) (next s) (set_phase (who s) p Choosing) (holds s))
    | Idle ShmAnon =>                                                   (* 153-155 *)
      Some (if works then anonymous p s
            else Shm (names s) (next s) (set_phase (who s) p (Done None)) (holds s))
    | _ => None
    end
  | Try p r fails =>
    match who s p with
    | Choosing =>
      match lookup (shm_name r) (names s) with
      | Some _ => Some s                                                (* O_EXCL: EEXIST, 100 *)
      | None =>
        Some (if fails then Shm (names s) (next s) (set_phase (who s) p (Done None)) (holds s)
              else Shm ((shm_name r, next s) :: names s) (S (next s))
                       (set_phase (who s) p (Window (shm_name r) (next s))) ((Host p, next s) :: holds s))
      end
    | _ => None
    end
  | Unlink p =>                                                         (* 103-106 *)
    match who s p with
    | Window n o => Some (Shm (remove n (names s)) (next s) (set_phase (who s) p (Done (Some o))) (holds s))
    | _ => None
    end
  | Crash p =>
    match who s p with
    | Ended => None
    | _ => Some (Shm (names s) (next s) (set_phase (who s) p Ended) (filter (fun x => negb (is_host p (fst x))) (holds s)))
    end
  | OtherCreate n =>
    match lookup n (names s) with
    | Some _ => Some s
    | None => Some (Shm ((n, next s) :: names s) (S (next s)) (who s) ((Outsider, next s) :: holds s))
    end
  | OtherOpen n =>
    match lookup n (names s) with
    | Some o => Some (Shm (names s) (next s) (who s) ((Outsider, o) :: holds s))
    | None => Some s
    end
  | OtherRemove n => Some (Shm (remove n (names s)) (next s) (who s) (holds s))
  end.

(** SharedMemoryMapPOSIXBase's constructor, 203-210, once the object is there:
    [fd] is the descriptor, [truncates] whether ftruncate works on a valid one.
    The assertion of 206 exists in debug builds and ends the process. *)
Definition resize (release : bool) (fd : option nat) (truncates : bool) : outcome nat :=
  match fd with
  | None =>
    if release then
      match check_at (Site (tx "include/process_sandbox/platform/shm_posix.h") (tx "209") DebugAndRelease
                        (tx "ftruncate failed {}") [tx "strerror(errno)"]) release false (tx "SharedMemoryMapPOSIXBase") [] with
      | Passed => UB | Stopped _ => Aborts | Raised => Throws
      end
    else Aborts
  | Some o =>
    match check_at (Site (tx "include/process_sandbox/platform/shm_posix.h") (tx "209") DebugAndRelease
                      (tx "ftruncate failed {}") [tx "strerror(errno)"]) release truncates (tx "SharedMemoryMapPOSIXBase") [] with
    | Passed => Ret o | Stopped _ => Aborts | Raised => Throws
    end
  end.
