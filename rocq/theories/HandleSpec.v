(** What it means to use Handle correctly, and the accounting it must keep. *)
From Coq Require Import List ZArith Bool Arith.
From Verif Require Import HandleModel.
Import ListNotations.
Open Scope Z_scope.

Fixpoint remove1 (n : Z) (l : list Z) : list Z :=
  match l with [] => [] | x :: r => if x =? n then r else x :: remove1 n r end.
Definition numbers (n : Z) : list Z := if n <? 0 then [] else [n].

(** The raw numbers in the program's own hands after some operations: those it
    obtained (by opening, or from [take]) and has not given away since. *)
Definition held_step (h : list Z) (e : op * result) : list Z :=
  match e with
  | (Open _, RNum n) | (Take _, RNum n) => numbers n ++ h
  | (Construct n, _) | (AssignRaw _ n, _) | (RawClose n, _) => remove1 n h
  | _ => h
  end.
Definition held (es : list (op * result)) : list Z := fold_left held_step es [].

(** The program gives a Handle only a number it holds (or an invalid, negative
    one), and itself closes only a number it holds. *)
Definition owns_argument (h : list Z) (o : op) : Prop :=
  match o with
  | Construct n | AssignRaw _ n => n < 0 \/ In n h
  | RawClose n => In n h
  | _ => True
  end.
Definition disciplined (es : list (op * result)) : Prop :=
  forall a e b, es = a ++ e :: b -> owns_argument (held a) (fst e).

(** For an identity: how often it was closed, how many live Handles refer to it,
    how many raw numbers in the program's hands refer to it. *)
Definition is_close (u : nat) (e : event) : bool :=
  match e with TClose _ _ (Some v) => Nat.eqb v u | _ => false end.
Definition refers (s : state) (u : nat) (n : Z) : bool :=
  match lookup n (kern s) with Some v => Nat.eqb v u | None => false end.
Definition times_closed (s : state) (u : nat) : nat := length (filter (is_close u) (trace s)).
Definition handles_owning (s : state) (u : nat) : nat :=
  length (filter (fun o => match o with Some n => refers s u n | None => false end) (objs s)).
Definition raw_holding (es : list (op * result)) (s : state) (u : nat) : nat :=
  length (filter (refers s u) (held es)).
