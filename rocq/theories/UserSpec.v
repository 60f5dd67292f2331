(** Specification of what a program with handlers of its own may rely on about its
    descriptors, its exports and the calls of its handlers. *)
From Coq Require Import String Ascii List ZArith Bool Arith.
From Verif Require Import Base PathModel FileTreeModel RegionModel DispatchModel HostCallsModel HandleModel OwnModel OwnSpec
  GateModel GateSpec LibsModel LibsSpec UserModel.
Import ListNotations.
Local Open Scope Z_scope.

(** What happened, with the library it happened to. *)
Definition uhistory := list (nat * (uop * uresult)).

(** The program's use of descriptors: a descriptor given to one of its handlers is
    its own from then on, as if it had opened it; one that a handler returns is no
    longer its own, as if it had closed it. *)
Definition handled (es : uhistory) : list (op * OwnModel.result) :=
  flat_map (fun e => match snd e with
    | (UDo o, UDid r) => [(o, r)]
    | (USays q, UEntered _ _ (Some u) _) => [(Open (match q_msg q with Some (_, Some n) => n | _ => 0 end), Opened u)]
    | (UReturn _ (Some u), _) => [(Close u, Done)]
    | _ => []
    end) es.
(** The program has [u] in its own hands. *)
Definition keeps (es : uhistory) (u : nat) : Prop := holds (handled es) u.

(** One library's network settings, and the handlers registered with it. *)
Definition network (i : nat) (es : uhistory) : list (netop * policy) :=
  flat_map (fun e => match snd e with (USet o p, _) => if Nat.eqb (fst e) i then [(o, p)] else [] | _ => [] end) es.
Definition registered (i : nat) (es : uhistory) : list (Z * bool) :=
  flat_map (fun e => match snd e with (URegister size takes, _) => if Nat.eqb (fst e) i then [(size, takes)] else [] | _ => [] end) es.

(** The calls of handlers of library [i] that have not ended, the latest first:
    what came with the request but was not passed on, and whether the reply can be
    sent. *)
Definition stacked (i : nat) (c : list (option nat * bool)) (e : nat * (uop * uresult)) :=
  if Nat.eqb (fst e) i then
    match snd e with
    | (USays q, UEntered _ _ _ kept) => (kept, q_sends q) :: c
    | (UReturn _ _, UServed _) | (UThrow, UServed _) => tl c
    | _ => c
    end
  else c.
Definition in_progress (i : nat) (es : uhistory) : list (option nat * bool) := fold_left (stacked i) es [].

(** The rules.  The program passes on, closes and returns only what it holds; a
    library is not destroyed while a handler of it runs.  Nothing is assumed of
    what the sandboxes ask for. *)
Definition uallowed (es : uhistory) (w : user) (i : nat) (o : uop) : Prop :=
  match o with
  | UDo o => allowed (handled es) (own (lib (base w) i)) o /\ match o with Drop => in_progress i es = [] | _ => True end
  | USet _ _ => True
  | URegister size _ => is_word size
  | USays q => gallowed [] (lib (base w) i) (Serve q)
  | UReturn _ who => in_progress i es <> [] /\ forall u, who = Some u -> keeps es u
  | UThrow => in_progress i es <> []
  end.
Inductive uruns (debug : bool) (heaps : nat -> heap) : uhistory -> user -> Prop :=
| uruns_0 : uruns debug heaps [] new_user
| uruns_snoc es w i o w' r :
    uruns debug heaps es w -> uallowed es w i o -> ustep debug heaps i o w = (w', r) ->
    uruns debug heaps (es ++ [(i, (o, r))]) w'.

(** The request [rq] is for a handler of the program: the number is that of the
    [k]th registration, counted from 0.  It fits if the size is right and the
    arguments lie in the sandbox's memory. *)
Definition asks_for (i : nat) (es : uhistory) (rq : crequest) (size : Z) (takes : bool) : Prop :=
  exists k, cr_kind rq = 7 + Z.of_nat k /\ nth_error (registered i es) k = Some (size, takes).
Definition fits (shm len hdr : Z) (rq : crequest) (size : Z) : Prop :=
  cr_size rq = size /\ shm + 2 * hdr <= cr_data rq /\ cr_data rq < shm + len /\ cr_data rq + cr_size rq <= shm + len.

(** What is seen at the end of a call: a descriptor that came or was returned is
    closed, under some number; the sandbox gets its answer, or is ended if the
    answer cannot be sent. *)
Definition shutting (f : Z) (v : option nat) : list seen :=
  match v with Some u => [Asked (KClose f) (Some u) None] | None => [] end.
Definition answer (sends : bool) (n : Z) (fd : option (option nat)) : seen := if sends then Replied n fd else Killed.
