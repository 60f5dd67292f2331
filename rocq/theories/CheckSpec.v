(** What a failed check ought to do, said without the code: a message is a
    sequence of characters, braces written twice, and holes for the arguments. *)
From Coq Require Import String Ascii List Bool.
From Verif Require Import Base.
Import ListNotations.

Local Open Scope char_scope.

Inductive piece :=
| Char (c : ascii) (* an ordinary character *)
| OpenBrace | CloseBrace
| Hole.

Definition spell1 (p : piece) : text :=
  match p with
  | Char c => [c]
  | OpenBrace => ["{"; "{"]
  | CloseBrace => ["}"; "}"]
  | Hole => ["{"; "}"]
  end.

(** The message as it is written in the program. *)
Definition spell (ps : list piece) : text := concat (map spell1 ps).

Definition ordinary (p : piece) : Prop :=
  match p with Char c => c <> "{" /\ c <> "}" | _ => True end.

Definition holes (ps : list piece) : nat :=
  length (filter (fun p => match p with Hole => true | _ => false end) ps).

(** [filled ps args out]: [out] is the message with each hole replaced by the
    next argument; arguments that are left over are ignored. *)
Inductive filled : list piece -> list text -> text -> Prop :=
| f_end : forall args, filled [] args []
| f_char : forall c ps args out, filled ps args out -> filled (Char c :: ps) args (c :: out)
| f_open : forall ps args out, filled ps args out -> filled (OpenBrace :: ps) args ("{" :: out)
| f_close : forall ps args out, filled ps args out -> filled (CloseBrace :: ps) args ("}" :: out)
| f_hole : forall ps a args out, filled ps args out -> filled (Hole :: ps) (a :: args) (a ++ out).

(** What is printed for a check in function [fn] of [file] at [line]. *)
Definition report_line (file line fn msg : text) : text :=
  file ++ tx ":" ++ line ++ tx " in " ++ fn ++ tx ": " ++ msg ++ ["010"].

(** [listed ts out]: [out] is the texts of [ts] in order, with a comma and a
    blank between each two. *)
Inductive listed : list text -> text -> Prop :=
| l_none : listed [] []
| l_one : forall t, listed [t] t
| l_more : forall t u ts out, listed (u :: ts) out -> listed (t :: u :: ts) (t ++ tx ", " ++ out).

(** The checks of the code, by file and line: those that are only in debug builds
    (SANDBOX_DEBUG_INVARIANT), and those that raise an exception when they fail. *)
Definition debug_places : list (text * text) :=
  [(tx "include/process_sandbox/path.h", tx "197"); (tx "src/library_runner.cc", tx "321"); (tx "src/library_runner.cc", tx "1076");
   (tx "src/libsandbox.cc", tx "782"); (tx "src/libsandbox.cc", tx "800")].
Definition raising_places : list (text * text) :=
  [(tx "include/process_sandbox/platform/sandbox_capsicum.h", tx "50"); (tx "src/library_runner.cc", tx "153"); (tx "src/library_runner.cc", tx "160");
   (tx "src/library_runner.cc", tx "1076"); (tx "src/libsandbox.cc", tx "850")].
