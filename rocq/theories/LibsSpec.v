(** Specification of what several libraries in one program may do to each other's
    exports and to the program's descriptors. *)
From Coq Require Import List ZArith Bool Arith.
From Verif Require Import Base PathModel FileTreeModel RegionModel DispatchModel HandleModel OwnModel OwnSpec GateModel GateSpec LibsModel.
Import ListNotations.

(** What happened, with the library it happened to; one library's own part. *)
Definition history := list (nat * (gop * gresult)).
Definition all (es : history) : list (gop * gresult) := map snd es.
Definition only (i : nat) (es : history) : list (gop * gresult) :=
  map snd (filter (fun e => Nat.eqb (fst e) i) es).

(** The rules are those for one library (GateSpec): the program passes on and
    closes only what it holds, whichever library it gave the rest to. *)
Inductive lruns (debug : bool) (heaps : nat -> heap) : history -> host -> Prop :=
| lruns_0 : lruns debug heaps [] new_host
| lruns_snoc es w i o w' r :
    lruns debug heaps es w -> gallowed (all es) (lib w i) o -> lstep debug heaps i o w = (w', r) ->
    lruns debug heaps (es ++ [(i, (o, r))]) w'.

(** The program has [u] in its own hands; a request of library [i] can find it; it
    was closed so many times. *)
Definition in_hand (es : history) (u : nat) : Prop := holds (program (all es)) u.
Definition exported (w : host) (i u : nat) : Prop := found (own (lib w i)) u.
Definition closings (w : host) (u : nat) : nat := times_closed (own (lib w 0)) u.
(** What library [i] finds at the path [p], by identity, and what is left of the
    path. *)
Definition finds (w : host) (i : nat) (p tail : path) (u : nat) : Prop :=
  exists t n, trees w i = Some t /\ lookup_file t p = Some (n, tail) /\ lookup n (table w) = Some u.
