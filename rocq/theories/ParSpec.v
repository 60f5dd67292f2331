(** Specification of what libraries used by several threads may do to each other's
    exports and to the program's descriptors. *)
From Coq Require Import List ZArith Bool Arith.
From Verif Require Import Base PathModel FileTreeModel RegionModel DispatchModel HostCallsModel HandleModel OwnModel OwnSpec
  GateModel GateSpec LibsModel LibsSpec ParModel.
Import ListNotations.
Local Open Scope Z_scope.

(** What happened, with the library whose thread or object it happened to. *)
Definition phistory := list (nat * (pop * presult)).
(** The program's use of descriptors; its network settings for one library. *)
Definition uses (es : phistory) : list (op * OwnModel.result) :=
  flat_map (fun e => match snd e with (PHost o, PDid r) => [(o, r)] | _ => [] end) es.
Definition sets (i : nat) (es : phistory) : list (netop * policy) :=
  flat_map (fun e => match snd e with (PSet o p, _) => if Nat.eqb (fst e) i then [(o, p)] else [] | _ => [] end) es.
(** What came with requests of library [i] or was opened for them. *)
Definition brought (i : nat) (es : phistory) : list nat :=
  flat_map (fun e => if Nat.eqb (fst e) i then
      match snd e with
      | (PBegin _, PBegun (Some u)) => [u]
      | (PNext, PSeen (Asked _ _ (Some u))) => [u]
      | _ => []
      end else []) es.
(** The latest request of library [i]: what came with it, and what was done for it
    so far. *)
Definition track (i : nat) (c : option (request * option nat * list seen)) (e : nat * (pop * presult)) :=
  if Nat.eqb (fst e) i then
    match snd e, c with
    | (PBegin q, PBegun got), _ => Some (q, got, [])
    | (PNext, PSeen x), Some (q, got, l) => Some (q, got, l ++ [x])
    | _, _ => c
    end
  else c.
Definition latest (i : nat) (es : phistory) : option (request * option nat * list seen) := fold_left (track i) es None.

(** The rules.  The program passes on and closes only what it holds; while a
    request of a library is served it leaves that library's tree and policy alone,
    but may use other libraries and its own descriptors; a library serves one
    request at a time.  The kernel: a number handed out is not in use at that moment
    and nothing is opened through a number that is not open.  Nothing is assumed of
    what the sandboxes ask for, nor of the order of the steps. *)
Definition pallowed (es : phistory) (w : par) (i : nat) (o : pop) : Prop :=
  match o with
  | PHost o => allowed (uses es) (own (lib (now w) i)) o /\ match o with Add _ _ _ | Drop => todo w i = [] | _ => True end
  | PSet _ _ => todo w i = []
  | PBegin q =>
      todo w i = [] /\ trees (now w) i <> None /\
      (forall rq fd, q_msg q = Some (rq, fd) -> is_word (cr_kind rq) /\ is_word (cr_size rq) /\ is_word (cr_data rq)) /\
      NoDup (arriving q) /\ (forall n, In n (arriving q) -> 0 <= n /\ lookup n (table (now w)) = None)
  | PNext =>
      match todo w i with
      | [] => False
      | MAsk o r :: _ => opens o = true -> 0 <= fst r ->
          lookup (fst r) (table (now w)) = None /\ forall f, subject o = Some f -> lookup f (table (now w)) <> None
      | _ => True
      end
  end.
Inductive pruns (debug : bool) (heaps : nat -> heap) : phistory -> par -> Prop :=
| pruns_0 : pruns debug heaps [] new_par
| pruns_snoc es w i o w' r :
    pruns debug heaps es w -> pallowed es w i o -> pstep debug heaps i o w = (w', r) ->
    pruns debug heaps (es ++ [(i, (o, r))]) w'.

(** Steps of one library only, with what is seen of them. *)
Inductive nexts (debug : bool) (heaps : nat -> heap) (i : nat) : par -> list seen -> par -> Prop :=
| nexts_0 w : nexts debug heaps i w [] w
| nexts_S w e w1 es w2 : pstep debug heaps i PNext w = (w1, PSeen e) -> nexts debug heaps i w1 es w2 -> nexts debug heaps i w (e :: es) w2.
