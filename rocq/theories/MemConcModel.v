(** Model of the memory service, of the host's chunk allocator and of the
    creation and destruction of libraries as several threads run them: every
    access to an allocator and to the pagemap is a step of its own, and the
    threads' steps interleave freely.  No proofs in this file. *)
From Coq Require Import List ZArith Bool.
From Verif Require Import Base RegionModel BuddyModel MemSvcModel.
Import ListNotations.
Open Scope Z_scope.

(** Where a thread is in an operation.
    - [PStart]: nothing done yet;
    - [PCheck a n]: DeallocChunk's scan still has to read the entries of [n]
      chunks from [a] on, src/libsandbox.cc 227-238;
    - [PMark a n e r]: the allocator has answered and its lock is released;
      set_metaentry still has to write [e] to [n] chunks from [a] on, and the
      result will be [r] (src/libsandbox.cc 188-202, sandbox.h 338-354);
    - [PUnmark a n]: dealloc_range's set_metaentry still has to write the
      backend entry to [n] chunks from [a] on (sandbox.h 367-369);
    - [PGiveBack]: the block goes back to the allocator (sandbox.h 370-372);
    - [PClear base top a]: the loop of ~Library over the library's pagemap
      entries is at [a], src/libsandbox.cc 766-785;
    - [PDone r]: the operation returns [r]. *)
Inductive pc :=
| PStart
| PCheck (a : Z) (n : nat)
| PMark (a : Z) (n : nat) (e : entry) (r : response)
| PUnmark (a : Z) (n : nat)
| PGiveBack
| PClear (base top a : Z)
| PDone (r : response).

(** The library an operation uses, if it uses one that exists already. *)
Definition op_box (op : event) : option nat :=
  match op with
  | EvReq i _ => Some i
  | EvHostAlloc i _ _ _ => Some i
  | EvHostFree i _ _ => Some i
  | EvCreate _ _ => None
  | EvDestroy i => Some i
  end.
(** The block a freeing operation names. *)
Definition op_block (op : event) : Z * Z :=
  match op with
  | EvReq _ rq => (rq_0 rq, rq_1 rq)
  | EvHostFree _ a size => (a, size)
  | _ => (0, 0)
  end.

(** m.alloc_range(size) in its own critical section under the lock of the
    library (LocalState::get_memory), sandbox.h 340-343 and src/libsandbox.cc
    189-192.  [e] is what will be written to the pagemap, [err] the error of a
    failed allocation. *)
Definition take_step (c : cfg) (st : gstate) (i : nat) (b : sbx) (size : Z) (e : entry) (err : Z)
  : gstate * pc :=
  match alloc_range (b_free b) size with
  | None => (st, PDone (Response err 0))
  | Some (a, free') =>
    (GState (g_pm st) (upd i (Sbx (b_shm b) (b_bits b) free' (b_live b)) (g_box st)),
     PMark a (chunk_steps c size) e (Response 0 a))
  end.

(** The part of MemoryServiceProvider::run's switch before the first access to
    shared data, and the allocation of AllocChunk: src/libsandbox.cc 160-226. *)
Definition service_start (c : cfg) (st : gstate) (i : nat) (b : sbx) (rq : request) : gstate * pc :=
  if rq_kind rq =? 0 then
    let size := rq_0 rq in
    if (size <? chunk c) || negb (is_pow2 size) then (st, PDone (Response 3 0))
    else
      let e := Entry (rq_1 rq) (rq_2 rq) in
      if negb (is_metaentry_valid c b size e) then (st, PDone (Response 1 0))
      else take_step c st i b size (claim_for_sandbox e) 2
  else if rq_kind rq =? 1 then
    let ptr := rq_0 rq in
    let size := rq_1 rq in
    if negb (contains (box_heap c b) ptr size) then (st, PDone (Response 1 0))
    else if negb (is_pow2 size && (chunk c <=? size)) then (st, PDone (Response 2 0))
    else if negb (align_down ptr (chunk c) =? ptr) then (st, PDone (Response 3 0))
    else (st, PCheck ptr (chunk_steps c size))
  else (st, PDone (Response 0 0)).

(** ~Library, src/libsandbox.cc 757-766: after the child has gone, the
    destructor takes the pagemap lock and starts its loop at the base of the
    library's memory. *)
Definition destroy_start (c : cfg) (st : gstate) (b : sbx) : gstate * pc :=
  let h := box_heap c b in (st, PClear (h_base h) (h_top h) (h_base h)).

(** The first step of an operation on a live library.  Backend::alloc_chunk,
    sandbox.h 335-355; Backend::dealloc_chunk, 378-388; ~Library. *)
Definition live_start (c : cfg) (st : gstate) (op : event) (b : sbx) : gstate * pc :=
  match op with
  | EvReq i rq => service_start c st i b rq
  | EvHostAlloc i size ras mp => take_step c st i b size (Entry mp ras) 1
  | EvHostFree i a size => (st, PUnmark a (chunk_steps c size))
  | EvCreate _ _ => (st, PDone (Response 99 0))
  | EvDestroy i => destroy_start c st b
  end.

(** The first step of an operation.  The constructor of a Library maps the
    memory and fills the free list of its own allocator, which no other thread
    can reach yet: one step (src/libsandbox.cc 55-67, 865-869). *)
Definition start_step (c : cfg) (st : gstate) (op : event) : gstate * pc :=
  match op_box op with
  | None =>
    match op with
    | EvCreate shm bits =>
      (GState (g_pm st) (g_box st ++ [new_box c shm bits]), PDone (Response 0 0))
    | _ => (st, PDone (Response 99 0))
    end
  | Some i =>
    match nth_error (g_box st) i with
    | Some b => if b_live b then live_start c st op b else (st, PDone (Response 99 0))
    | None => (st, PDone (Response 99 0))
    end
  end.

(** m.dealloc_range(base, size) in its own critical section under the lock of
    the library, sandbox.h 370-372. *)
Definition give_step (st : gstate) (op : event) : gstate * pc :=
  match op_box op with
  | None => (st, PDone (Response 99 0))
  | Some i =>
    match nth_error (g_box st) i with
    | Some b =>
      (GState (g_pm st)
              (upd i
                   (Sbx (b_shm b) (b_bits b)
                        (dealloc_range (b_free b) (fst (op_block op)) (snd (op_block op))) (b_live b))
                   (g_box st)),
       PDone (Response 0 0))
    | None => (st, PDone (Response 99 0))
    end
  end.

(** The end of ~Library: the memory is unmapped (shared_mem->destroy(),
    src/libsandbox.cc 787) and the Library object is gone. *)
Definition gone_step (st : gstate) (op : event) : gstate * pc :=
  match op_box op with
  | None => (st, PDone (Response 99 0))
  | Some i =>
    match nth_error (g_box st) i with
    | Some b => (GState (g_pm st) (upd i (Sbx (b_shm b) (b_bits b) (b_free b) false) (g_box st)),
                 PDone (Response 0 0))
    | None => (st, PDone (Response 99 0))
    end
  end.

(** One step of a thread inside an operation.  set_metaentry holds the pagemap
    lock for its whole loop, sandbox.h 180-189, but readers of the pagemap do
    not take that lock (DeallocChunk's scan calls get_metaentry_mut without
    it), so every entry is written in a step of its own; letting two writers
    interleave as well only adds executions.  The same goes for the loop of
    ~Library, which also holds the lock; the `delete` of the metadata it finds
    is host memory and not modelled here. *)
Definition tstep (c : cfg) (st : gstate) (op : event) (p : pc) : gstate * pc :=
  match p with
  | PStart => start_step c st op
  | PCheck a O => (st, PUnmark (fst (op_block op)) (chunk_steps c (snd (op_block op))))
  | PCheck a (S n) =>
    if is_sandbox_owned (g_pm st (a / chunk c)) then (st, PCheck (a + chunk c) n)
    else (st, PDone (Response 4 0))
  | PMark a O e r => (st, PDone r)
  | PMark a (S n) e r =>
    (GState (pm_set (g_pm st) (a / chunk c) e) (g_box st), PMark (a + chunk c) n e r)
  | PUnmark a O => (st, PGiveBack)
  | PUnmark a (S n) =>
    (GState (pm_set (g_pm st) (a / chunk c) (backend_entry c)) (g_box st), PUnmark (a + chunk c) n)
  | PGiveBack => give_step st op
  | PClear base top a =>
    if a <? top
    then (GState (pm_set (g_pm st) (a / chunk c) empty_entry) (g_box st),
          PClear base top (a + chunk c))
    else gone_step st op
  | PDone r => (st, PDone r)
  end.

(** The whole host process: the shared data and what each thread is doing.
    Thread 0 is the memory service thread (MemoryServiceProvider::run, one
    thread for all libraries, src/libsandbox.cc 104-255); all others are
    threads of the program. *)
Record cstate := CState { c_mem : gstate; c_thr : nat -> option (event * pc) }.

(** All threads outside the allocator. *)
Definition idle_state (st : gstate) : cstate := CState st (fun _ => None).

Definition set_thr (f : nat -> option (event * pc)) (t : nat) (v : option (event * pc))
  : nat -> option (event * pc) := fun u => if Nat.eqb u t then v else f u.
