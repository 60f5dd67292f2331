(** Specification of the ownership of exported descriptors. *)
From Coq Require Import List ZArith.
From Verif Require Import Base PathModel PathSpec FileTreeModel FileTreeSpec HandleModel OwnModel.
Import ListNotations.
Local Open Scope Z_scope.

(** What the host still has in its own hands: it opened it, and neither closed
    it nor had it accepted by the tree.  (A refused or throwing add does not take
    the Handle.) *)
Definition holds (es : list (op * result)) (u : nat) : Prop :=
  (exists n, In (Open n, Opened u) es) /\ ~ In (Close u, Done) es /\
  forall p file, ~ In (Add p file (Some u), Answer true) es.

(** The host passes on and closes only what it holds, uses the tree only while
    it exists, and paths have lengths that fit; the kernel never hands out a
    number that is open. *)
Definition allowed (es : list (op * result)) (s : state) (o : op) : Prop :=
  match o with
  | Open n => 0 <= n /\ lookup n (kern s) = None
  | Add p _ who => tree s <> None /\ zlen p < npos /\ forall u, who = Some u -> holds es u
  | Close u => holds es u
  | Drop => tree s <> None
  end.
Inductive runs (debug : bool) : list (op * result) -> state -> Prop :=
| runs_0 : runs debug [] init
| runs_snoc es s o s' r :
    runs debug es s -> allowed es s o -> step debug o s = (s', r) -> runs debug (es ++ [(o, r)]) s'.

(** How often [u] was closed. *)
Definition times_closed (s : state) (u : nat) : nat :=
  length (filter (fun c => match snd c with Some w => Nat.eqb w u | None => false end) (closes s)).

(** Some request finds it: a lookup answers with the number under which [u] is
    open. *)
Definition found (s : state) (u : nat) : Prop :=
  exists t p n tail, tree s = Some t /\ lookup_file t p = Some (n, tail) /\ lookup n (kern s) = Some u.

(** The exports a program asked for, at well-formed absolute paths, naming what
    was exported by its identity (-1: an empty Handle). *)
Definition export (file : bool) (who : option nat) : leaf :=
  let w := match who with Some u => Z.of_nat u | None => -1 end in
  if file then LeafFile w else LeafDir w.
Inductive asked : list (op * result) -> list (list text * leaf * bool) -> Prop :=
| asked_0 : asked [] []
| asked_add es h q file who ok :
    asked es h -> good_names q ->
    asked (es ++ [(Add (raw_path q) file who, Answer ok)]) (h ++ [(q, export file who, ok)])
| asked_open es h n r : asked es h -> asked (es ++ [(Open n, r)]) h
| asked_close es h u r : asked es h -> asked (es ++ [(Close u, r)]) h.

(** What a number stands for. *)
Definition stands_for (s : state) (n w : Z) : Prop :=
  n = -1 /\ w = -1 \/ exists u, w = Z.of_nat u /\ lookup n (kern s) = Some u.
