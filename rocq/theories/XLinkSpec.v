(** Specification of C77: the library linked into the program, called by plain
    procedure calls, in a language with exceptions. *)
From Coq Require Import List ZArith.
From Verif Require Import FrameModel FrameSpec LinkModel LinkSpec XLinkModel.
Import ListNotations.
Open Scope Z_scope.

Section Direct.
Variable xcode : list obs -> xcmd.
Variable fcode : list obs -> fcmd.
(** Callbacks made while the library is loaded. *)
Variable ks : list Z.

Definition xanswered (t : list obs) : Prop := forall p k r q, t = p ++ OHandled k r :: q -> xcode p = Do (Give r).

(** [xdirect st t]: the program can do [t] and then be inside [st]. *)
Inductive xdirect : list doing -> list obs -> Prop :=
| x_start done : map fst done = ks -> xanswered (served done) -> xdirect [] (served done)
| x_first done l1 l2 i args : map fst done = ks -> served done = l1 ++ l2 ->
    xcode l1 = Do (Call i args) -> xanswered (l1 ++ OCall i args :: l2) ->
    xdirect [Fn i] (l1 ++ OCall i args :: l2 ++ [OStart i args])
| x_call st t i args : xdirect st t -> hosts_turn st -> xcode t = Do (Call i args) ->
    xdirect (Fn i :: st) (t ++ [OCall i args; OStart i args])
| x_callback i st t k : xdirect (Fn i :: st) t -> fcode t = Back k ->
    xdirect (Handling k :: Fn i :: st) (t ++ [OCallback k; OHandle k])
| x_answer k st t r : xdirect (Handling k :: st) t -> xcode t = Do (Give r) ->
    xdirect st (t ++ [OHandled k r; OResume k r])
| x_return i st t v : xdirect (Fn i :: st) t -> fcode t = Result v ->
    xdirect st (t ++ [OReturn i v; ODone i v])
(* an exception: the program goes on at its top level *)
| x_throw k st t : xdirect (Handling k :: st) t -> xcode t = Throw ->
    xdirect [] (t ++ [OThrow]).

Definition xtyped (sig : Z -> layout) : Prop :=
  (forall t i args, xcode t = Do (Call i args) -> sized (sig i) args) /\
  (forall st t i v, xdirect (Fn i :: st) t -> fcode t = Result v -> length v = snd (l_ret (sig i))).
End Direct.
