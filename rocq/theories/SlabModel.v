(** Model of what the sandboxed process's allocator does for a slab: alloc_chunk,
    dealloc_chunk (src/library_runner.cc 233-275) and SharedMemoryRange (183-210),
    on top of requestHostService (ChildHeapModel.v).  A slab is a chunk of shared
    memory together with a metadata block, which comes from metadata_range
    (src/child_malloc.h 89-90), private memory of the process.
    No proofs in this file. *)
From Coq Require Import List ZArith Bool Arith.
From Verif Require Import Base MemSvcModel ChildHeapModel.
Import ListNotations.
Open Scope Z_scope.

(** What alloc_chunk returns, 260, with the size it was asked for, and
    dealloc_chunk is given, 263-268. *)
Record slab := Slab { sl_at : Z; sl_size : Z; sl_meta : Z }.

(** Where a thread is.  alloc_chunk: called; it has its metadata block and has
    not yet asked the host; it is in requestHostService (239-247).  dealloc_chunk:
    called; the metadata is given back (270-272); in requestHostService (273-274).
    SharedMemoryRange: called; in requestHostService.  Simplification: the
    SmallBuddyRange between alloc_meta_data (277-283) and SharedMemoryRange (215)
    is not modelled: [Raw] is a request that reaches SharedMemoryRange, whatever
    it is. *)
Inductive job :=
| Idle
| Wants (size ras : Z)
| Has (ms size ras : Z)
| Asked (ms size : Z)
| Frees (sl : slab)
| Freed (a size : Z)
| Returning
| Raw (rq : request)
| RawAsked.

(** What is asked of metadata_range: a block was handed out, or given back. *)
Inductive mcall := Got (ms : Z) | Gave (ms : Z).

(** The state of the process and its host. *)
Record mst := MSt {
  base : st;                     (* requestHostService, socket, host *)
  jobs : nat -> job;
  slabs : list slab;             (* handed to the front end, not yet given back *)
  crashed : bool }.              (* killed by the null pointer of 239-241 *)

(** Thread [t] moves on; not code. *)
Definition set_job (t : nat) (j : job) (f : nat -> job) : nat -> job := fun u => if Nat.eqb u t then j else f u.

(** Steps.  [Meta t ms]: metadata_range answers thread t with a block at [ms], or
    with null; [Basic o]: a step inside requestHostService, or of the host. *)
Inductive mop :=
| CallAlloc (t : nat) (size ras : Z)
| CallFree (t : nat) (sl : slab)
| CallRaw (t : nat) (rq : request)
| Meta (t : nat) (ms : Z)
| MetaBack (t : nat)
| Go (t : nat)
| Basic (o : op).

(** A thread leaves requestHostService: with a result, 248-261 for alloc_chunk;
    or by an exception, which leaves the caller too (nothing in 233-275 handles
    it). *)
Definition leave (x : out) (s : mst) : mst * list mcall :=
  match x with
  | Returned t _ v =>
    match jobs s t with
    | Asked ms size =>
      if v =? 0
      then (MSt (base s) (set_job t Idle (jobs s)) (slabs s) (crashed s), [Gave ms])                      (* 248-254 *)
      else (MSt (base s) (set_job t Idle (jobs s)) (Slab v size ms :: slabs s) (crashed s), [])            (* 256-260 *)
    | _ => (MSt (base s) (set_job t Idle (jobs s)) (slabs s) (crashed s), [])
    end
  | GaveUp t _ => (MSt (base s) (set_job t Idle (jobs s)) (slabs s) (crashed s), [])
  end.
(** A step makes at most one thread leave. *)
Definition leaves (l : list out) (s : mst) : mst * list mcall :=
  match l with x :: _ => leave x s | [] => (s, []) end.

(** The same slab; not code, used to take a slab out of [slabs]. *)
Definition slab_eqb (x y : slab) : bool :=
  (sl_at x =? sl_at y) && (sl_size x =? sl_size y) && (sl_meta x =? sl_meta y).

(** One step: the new state, the calls to metadata_range, and the step that was
    made inside ChildHeapModel, if any.  Simplification: metadata_range works
    atomically; nothing in the code makes it so when two threads use it at the
    same time (see metadata_range_unlocked). *)
Definition mstep (c : cfg) (i : nat) (o : mop) (s : mst) : mst * list mcall * list (op * list out) :=
  let now t j m := (MSt (base s) (set_job t j (jobs s)) (slabs s) (crashed s), m, []) in
  let enter t rq j : mst * list mcall * list (op * list out) :=
    let (b, x) := step c i (Enter t rq) (base s) in
    (MSt b (set_job t j (jobs s)) (slabs s) (crashed s), [], [(Enter t rq, x)]) in
  match o with
  | CallAlloc t size ras => now t (Wants size ras) []
  | CallFree t sl =>
    (MSt (base s) (set_job t (Frees sl) (jobs s)) (filter (fun y => negb (slab_eqb sl y)) (slabs s)) (crashed s), [], [])
  | CallRaw t rq => now t (Raw rq) []
  | Meta t ms =>
    match jobs s t with
    | Wants size ras =>
      if ms =? 0                    (* 239-241: the constructor writes through the null pointer *)
      then (MSt (base s) (jobs s) (slabs s) true, [], [])
      else now t (Has ms size ras) [Got ms]
    | _ => (s, [], [])
    end
  | MetaBack t =>                   (* 270-272 *)
    match jobs s t with
    | Frees sl => now t (Freed (sl_at sl) (sl_size sl)) [Gave (sl_meta sl)]
    | _ => (s, [], [])
    end
  | Go t =>
    match jobs s t with
    | Has ms size ras => enter t (req_alloc size ms ras) (Asked ms size)                       (* 242-247 *)
    | Freed a size => enter t (req_free a size) Returning                                      (* 273-274 *)
    | Raw rq => enter t rq RawAsked                                                            (* 197-198, 207-208 *)
    | _ => (s, [], [])
    end
  | Basic o =>
    let (b, x) := step c i o (base s) in
    let (s', m) := leaves x (MSt b (jobs s) (slabs s) (crashed s)) in
    (s', m, [(o, x)])
  end.

(** The start: no thread has called, as in [start] of ChildHeapModel. *)
Definition mstart (c : cfg) (evs : list event) : mst := MSt (start c evs) (fun _ => Idle) [] false.
