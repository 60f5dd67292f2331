(** Vocabulary for C69. *)
From Coq Require Import String Ascii List ZArith Bool.
From Verif Require Import Base ShmModel.
Import ListNotations.

(** The states a history leads to. *)
Inductive runs (s0 : shm) : list op -> shm -> Prop :=
| runs_start : runs s0 [] s0
| runs_step h s o s' : runs s0 h s -> step o s = Some s' -> runs s0 (h ++ [o]) s'.

(** Where things may begin: no process has done anything yet; the namespace may
    hold any objects, each name once, and others may have any of them open. *)
Definition start (s : shm) : Prop :=
  (forall p, exists w, who s p = Idle w) /\
  (forall n o, In (n, o) (names s) -> (o < next s)%nat) /\
  (forall x o, In (x, o) (holds s) -> x = Outsider /\ (o < next s)%nat) /\
  NoDup (map fst (names s)).

(** Process [p] has got object [o]. *)
Definition got (s : shm) (p o : nat) : Prop := who s p = Done (Some o).

(** Somebody else opened the object of [p] while it had its name. *)
Definition opened_in_window (s0 : shm) (h : list op) (p o : nat) : Prop :=
  exists h1 n h2 s1, h = h1 ++ OtherOpen n :: h2 /\ runs s0 h1 s1 /\ who s1 p = Window n o.

(** A process ended while its object [o] had the name [n]. *)
Definition crashed_in_window (s0 : shm) (h : list op) (n : text) (o : nat) : Prop :=
  exists h1 p h2 s1, h = h1 ++ Crash p :: h2 /\ runs s0 h1 s1 /\ who s1 p = Window n o.

(** Another program created the object [o] under the name [n]. *)
Definition created_by_other (s0 : shm) (h : list op) (n : text) (o : nat) : Prop :=
  exists h1 h2 s1, h = h1 ++ OtherCreate n :: h2 /\ runs s0 h1 s1 /\ next s1 = o /\ ~ In n (map fst (names s1)).

(** Several operations in a row. *)
Fixpoint play (os : list op) (s : shm) : option shm :=
  match os with
  | [] => Some s
  | o :: os => match step o s with Some s' => play os s' | None => None end
  end.

(** What random() can return. *)
Definition is_random (r : Z) : Prop := (0 <= r < 2 ^ 31)%Z.
