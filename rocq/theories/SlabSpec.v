(** Vocabulary for the slabs of a sandboxed process. *)
From Coq Require Import List ZArith Bool Arith.
From Verif Require Import Base MemSvcModel MemSvcSpec ChildHeapModel ChildHeapSpec SlabModel.
Import ListNotations.
Open Scope Z_scope.

(** The books of metadata_range: the blocks handed out, or [None] once a block is
    given back that is not out. *)
Definition account (b : option (list Z)) (m : mcall) : option (list Z) :=
  match b with
  | None => None
  | Some l =>
    match m with
    | Got ms => Some (ms :: l)
    | Gave ms => if in_dec Z.eq_dec ms l then Some (remove Z.eq_dec ms l) else None
    end
  end.
Definition accounts (m : list mcall) : option (list Z) := fold_left account m (Some []).

(** A live process: no abort and no null metadata.  Blocks held without metadata. *)
Definition alive (s : mst) : Prop := dead (base s) = false /\ crashed s = false.
Definition arenas (h : history) : list grant := filter (fun g => g_meta g =? 0) (held h).

(** What the rest of the process does sensibly.  The front end calls alloc_chunk
    with sizes and second words the host accepts, gives back slabs it holds, once;
    allocator_range asks for arenas of its own and returns those (no metadata);
    metadata_range hands out 16-byte aligned blocks that are not in use.  Dead
    processes make no steps. *)
Definition mpossible (c : cfg) (i : nat) (h : history) (m : list mcall) (o : mop) (s : mst) : Prop :=
  match o with
  | CallAlloc t _ _ | CallRaw t _ => alive s /\ jobs s t = Idle
  | CallFree t sl => alive s /\ jobs s t = Idle /\ In sl (slabs s)
  | Meta t ms =>
    alive s /\ (exists size ras, jobs s t = Wants size ras) /\
    (ms = 0 \/ (0 < ms /\ (16 | ms) /\ forall l, accounts m = Some l -> ~ In ms l))
  | MetaBack t => alive s /\ exists sl, jobs s t = Frees sl
  | Go t =>
    alive s /\
    match jobs s t with
    | Has ms size ras => sensible c i (books (tr (base s))) (held h) (req_alloc size ms ras)
    | Freed _ _ => True
    | Raw rq => sensible c i (books (tr (base s))) (arenas h) rq /\ (rq_kind rq = 0 -> rq_1 rq = 0)
    | _ => False
    end
  | Basic o => possible c i h o (base s) /\ (forall t rq, o <> Enter t rq) /\
               (crashed s = false \/ o = Serve \/ exists ev, o = Env ev)
  end.

(** A run: the history inside requestHostService, and the calls to metadata_range. *)
Inductive mruns (c : cfg) (i : nat) (evs : list event) : history -> list mcall -> mst -> Prop :=
| mruns_0 : mruns c i evs [] [] (mstart c evs)
| mruns_S h m s o s' m' h' : mruns c i evs h m s -> mpossible c i h m o s ->
    mstep c i o s = (s', m', h') -> mruns c i evs (h ++ h') (m ++ m') s'.

(** A call of alloc_chunk with metadata at [ms] was left by an exception. *)
Definition lost (h : history) (ms : Z) : Prop :=
  exists o x t size ras, In (o, x) h /\ In (GaveUp t (req_alloc size ms ras)) x.
(** A thread is between getting a metadata block and returning it or handing it
    over with its slab. *)
Definition in_hand (s : mst) (ms : Z) : Prop :=
  exists t, match jobs s t with
            | Has ms' _ _ | Asked ms' _ => ms' = ms
            | Frees sl => sl_meta sl = ms
            | _ => False
            end.
Definition apart (x y : slab) : Prop := sl_at x + sl_size x <= sl_at y \/ sl_at y + sl_size y <= sl_at x.
