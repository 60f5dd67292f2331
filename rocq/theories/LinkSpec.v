(** Specification of C74: the library linked into the program, called by plain
    procedure calls.  No processes, frames, addresses or protocol. *)
From Coq Require Import List ZArith.
From Verif Require Import FrameModel FrameSpec LinkModel.
Import ListNotations.
Open Scope Z_scope.

Inductive doing := Fn (i : Z) | Handling (k : Z).

(** The callbacks a library makes while it is loaded, with their answers. *)
Definition served (done : list (Z * Z)) : list obs :=
  flat_map (fun '(k, r) => [OCallback k; OHandle k; OHandled k r; OResume k r]) done.

Section Direct.
Variable hcode : list obs -> hcmd.
Variable fcode : list obs -> fcmd.
(** Callbacks made while the library is loaded. *)
Variable ks : list Z.

Definition answered (t : list obs) : Prop := forall p k r q, t = p ++ OHandled k r :: q -> hcode p = Give r.
(** The program's own code is running: its top level or a handler. *)
Definition hosts_turn (st : list doing) : Prop := match st with Fn _ :: _ => False | _ => True end.

(** [direct st t]: the program can do [t] and then be inside [st]. *)
Inductive direct : list doing -> list obs -> Prop :=
| d_start done : map fst done = ks -> answered (served done) -> direct [] (served done)
(* the library is loaded in the background: the first call may be made before the
   last of those callbacks, but it runs after all of them *)
| d_first done l1 l2 i args : map fst done = ks -> served done = l1 ++ l2 ->
    hcode l1 = Call i args -> answered (l1 ++ OCall i args :: l2) ->
    direct [Fn i] (l1 ++ OCall i args :: l2 ++ [OStart i args])
| d_call st t i args : direct st t -> hosts_turn st -> hcode t = Call i args ->
    direct (Fn i :: st) (t ++ [OCall i args; OStart i args])
| d_callback i st t k : direct (Fn i :: st) t -> fcode t = Back k ->
    direct (Handling k :: Fn i :: st) (t ++ [OCallback k; OHandle k])
| d_answer k st t r : direct (Handling k :: st) t -> hcode t = Give r ->
    direct st (t ++ [OHandled k r; OResume k r])
| d_return i st t v : direct (Fn i :: st) t -> fcode t = Result v ->
    direct st (t ++ [OReturn i v; ODone i v]).

(** The code respects the types of the interface. *)
Definition typed (sig : Z -> layout) : Prop :=
  (forall t i args, hcode t = Call i args -> sized (sig i) args) /\
  (forall st t i v, direct (Fn i :: st) t -> fcode t = Result v -> length v = snd (l_ret (sig i))).
End Direct.

(** No function of the library has run or returned. *)
Definition not_begun (t : list obs) : Prop :=
  forall o, In o t -> match o with OStart _ _ | OReturn _ _ | ODone _ _ | OThrow => False | _ => True end.

(** The bytes of an allocated frame. *)
Definition within (sig : Z -> layout) (f : frame) (x : Z) : Prop :=
  f_at f <= x < f_at f + l_size (sig (f_fn f)).
Definition apart (sig : Z -> layout) (f g : frame) : Prop := forall x, within sig f x -> ~ within sig g x.

(** Frames a compiler could make. *)
Definition proper (sig : Z -> layout) : Prop := forall i, sensible (sig i) /\ 0 < l_size (sig i).
(** The allocator: memory that is not in use, never the null pointer. *)
Definition allocates (sig : Z -> layout) (place : world -> Z -> Z) : Prop :=
  forall w i, place w i <> 0 /\ forall f, In f (frames w) -> apart sig (Frame i (place w i) PSent) f.
(** Nobody else writes to a frame between the host's stores and the start of the
    function, nor between its return and the host's load.  While the function
    runs its frame may change in any way. *)
Definition calm (sig : Z -> layout) (other : world -> memory) : Prop :=
  forall w f x, In f (frames w) -> f_phase f <> PRunning -> within sig f x -> other w x = mem w x.

(** Calls in progress: made and not yet returned. *)
Fixpoint in_progress (t : list obs) : Z :=
  match t with
  | [] => 0
  | OCall _ _ :: r => in_progress r + 1
  | ODone _ _ :: r => in_progress r - 1
  | _ :: r => in_progress r
  end.
(** A function of the library has started. *)
Definition begun (t : list obs) : Prop := exists i a, In (OStart i a) t.
