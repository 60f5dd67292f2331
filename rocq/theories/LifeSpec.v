(** Specification of what becomes of the descriptors that libraries use for
    themselves. *)
From Coq Require Import List ZArith Bool Arith.
From Verif Require Import Base FileTreeModel RegionModel HandleModel OwnModel OwnSpec GateModel GateSpec LibsModel LibsSpec
  UserModel UserSpec LifeModel.
Import ListNotations.
Local Open Scope Z_scope.

(** What happened, with the library it happened to; the part that is not about the
    making and unmaking of libraries. *)
Definition lifehistory := list (nat * (lop * lresult)).
Definition theirs (es : lifehistory) : uhistory :=
  flat_map (fun e => match snd e with (LUser o, LUsed r) => [(fst e, (o, r))] | _ => [] end) es.

(** Library [i] was made, and these are its descriptors; it was destroyed; the
    memory service has dropped it. *)
Definition made (i : nat) (es : lifehistory) (a b c d e : nat) : Prop :=
  exists n1 n2 n3 n4 n5, In (i, (LStart n1 n2 n3 n4 n5, LStarted a b c d e)) es.
Definition unmade (i : nat) (es : lifehistory) : Prop := In (i, (LStop, LStopped)) es.
Definition dropped (i : nat) (es : lifehistory) : Prop := In (i, (LForget, LForgot)) es.
(** How many libraries were ever made. *)
Definition makings (es : lifehistory) : nat :=
  length (filter (fun e => match snd e with (LStart _ _ _ _ _, _) => true | _ => false end) es).
(** [u] is one of the descriptors of some library for itself. *)
Definition internal (es : lifehistory) (u : nat) : Prop := exists i a b c d e, made i es a b c d e /\ In u [a; b; c; d; e].

(** The rules are those of UserSpec for the program; it has no name for the
    descriptors that libraries use for themselves.  A library is made once, serves
    requests only while it exists, and is destroyed once, with no handler running.
    The kernel gives numbers that are not in use. *)
Definition lifeallowed (es : lifehistory) (w : life) (i : nat) (o : lop) : Prop :=
  match o with
  | LUser o => uallowed (theirs es) (process w) i o /\
      match o with
      | UDo Drop => False                         (* that is LStop *)
      | USays _ => sockets w i <> None
      | _ => True
      end
  | LStart n1 n2 n3 n4 n5 =>
      (forall a b c d e, ~ made i es a b c d e) /\ NoDup [n1; n2; n3; n4; n5] /\
      forall n, In n [n1; n2; n3; n4; n5] -> 0 <= n /\ lookup n (table (base (process w))) = None
  | LStop => sockets w i <> None /\ in_progress i (theirs es) = []
  | LForget => ranges w i <> None
  end.
Inductive liferuns (debug : bool) (heaps : nat -> heap) : lifehistory -> life -> Prop :=
| liferuns_0 : liferuns debug heaps [] new_life
| liferuns_snoc es w i o w' r :
    liferuns debug heaps es w -> lifeallowed es w i o -> lifestep debug heaps i o w = (w', r) ->
    liferuns debug heaps (es ++ [(i, (o, r))]) w'.

(** [u] is open in the process under some number. *)
Definition is_open (w : life) (u : nat) : Prop := exists n, lookup n (table (base (process w))) = Some u.
