(** Independent vocabulary for the Path properties. *)
From Coq Require Import String Ascii List ZArith Bool.
From Verif Require Import Base.
Import ListNotations.

(** A text without separator. *)
Definition no_slash (t : text) : Prop := ~ In slash t.

(** Segments joined by single '/' characters. *)
Fixpoint joined (segs : list text) : text :=
  match segs with
  | [] => []
  | [s] => s
  | s :: rest => s ++ slash :: joined rest
  end.

(** [segs] is the decomposition of [t] into its maximal separator-free
    segments: joining them gives [t] back and none contains a separator. *)
Definition segments_of (t : text) (segs : list text) : Prop :=
  segs <> [] /\ Forall no_slash segs /\ joined segs = t.

(** One trailing empty segment is ignored. *)
Definition drop_trailing_empty (segs : list text) : list text :=
  match rev segs with
  | [] :: r => rev r
  | _ => segs
  end.

Definition starts_with_slash (t : text) : bool :=
  match t with c :: _ => if ascii_dec c slash then true else false | [] => false end.

Definition strip_leading_slash (t : text) : text :=
  match t with
  | c :: r => if ascii_dec c slash then r else t
  | [] => []
  end.

Definition ends_with_slash (t : text) : bool := starts_with_slash (rev t).

(** Number of ".." components and of ordinary (non-empty, not "..") names. *)
Fixpoint ups (l : list text) : nat :=
  match l with
  | [] => 0
  | c :: r => (if text_eq_dec c dotdot then 1 else 0) + ups r
  end.

Fixpoint names (l : list text) : nat :=
  match l with
  | [] => 0
  | c :: r =>
      (if text_eq_dec c dotdot then 0 else if text_eq_dec c [] then 0 else 1)
      + names r
  end.

(** Some prefix of the path climbs above its start. *)
Definition climbs_above_start (l : list text) : Prop :=
  exists pre post, l = pre ++ post /\ names pre < ups pre.

(** Following a path, component by component, in an arbitrary directory
    structure given by a child and a parent map. *)
Fixpoint follow {Node : Type} (child : Node -> text -> Node)
  (parent : Node -> Node) (n : Node) (l : list text) : Node :=
  match l with
  | [] => n
  | c :: r =>
      follow child parent
        (if text_eq_dec c [] then n
         else if text_eq_dec c dotdot then parent n else child n c) r
  end.

(** The same, where additionally "." stays in place as POSIX says. *)
Fixpoint follow_posix {Node : Type} (child : Node -> text -> Node)
  (parent : Node -> Node) (n : Node) (l : list text) : Node :=
  match l with
  | [] => n
  | c :: r =>
      follow_posix child parent
        (if text_eq_dec c [] then n
         else if text_eq_dec c (tx ".") then n
         else if text_eq_dec c dotdot then parent n else child n c) r
  end.

Definition clean (l : list text) : Prop :=
  Forall (fun c => c <> [] /\ c <> dotdot) l.
