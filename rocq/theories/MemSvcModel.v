(** Model of the pagemap entries, of the host's memory service for sandboxes,
    of the host's own chunk allocation in a sandbox, and of the pagemap part of
    creating and destroying a Library.  No proofs in this file. *)
From Coq Require Import List ZArith Bool.
From Verif Require Import Base RegionModel BuddyModel.
Import ListNotations.
Open Scope Z_scope.

(** ** Pagemap entries *)

(** The two words of snmalloc's MetaEntryBase: meta and remote_and_sizeclass. *)
Record entry := Entry { e_meta : Z; e_ras : Z }.

(** SandboxMetaEntry::SANDBOX_BIT,
    include/process_sandbox/sandbox_meta_entry.h 20. *)
Definition SANDBOX_BIT : Z := 8.
(** snmalloc's META_BOUNDARY_BIT (external constant). *)
Definition META_BOUNDARY_BIT : Z := 1.

(** is_sandbox_owned, sandbox_meta_entry.h 32-35. *)
Definition is_sandbox_owned (e : entry) : bool :=
  Z.land (e_meta e) SANDBOX_BIT =? SANDBOX_BIT.
(** claim_for_sandbox, sandbox_meta_entry.h 40-43. *)
Definition claim_for_sandbox (e : entry) : entry :=
  Entry (Z.lor (e_meta e) SANDBOX_BIT) (e_ras e).
(** is_unowned, sandbox_meta_entry.h 45-50. *)
Definition is_unowned (e : entry) : bool :=
  let m := Z.ldiff (e_meta e) SANDBOX_BIT in
  ((m =? 0) || (m =? META_BOUNDARY_BIT)) && (e_ras e =? 0).
(** get_slab_metadata, sandbox_meta_entry.h 52-58 (the SNMALLOC_ASSERT on the
    remote exists only in snmalloc debug builds and is not modelled). *)
Definition get_slab_metadata (e : entry) : Z :=
  Z.ldiff (e_meta e) (Z.lor SANDBOX_BIT META_BOUNDARY_BIT).

(** Entry{nullptr, 0}. *)
Definition empty_entry : entry := Entry 0 0.

(** ** External constants *)

(** What the code takes from snmalloc and from the compiler:
    MIN_CHUNK_BITS, sizeof(SharedMemoryRegion), sizeof(RemoteAllocator), the
    decoding of a remote_and_sizeclass word (get_remote, and
    sizeclass_full_to_size(get_sizeclass)), and REMOTE_BACKEND_MARKER. *)
Record cfg := Cfg {
  cbits : nat;
  hdr_size : Z;
  remote_size : Z;
  remote_of : Z -> Z;
  class_bytes : Z -> Z;
  backend_marker : Z }.

(** MIN_CHUNK_SIZE. *)
Definition chunk (c : cfg) : Z := 2 ^ Z.of_nat (cbits c).

(** MetaEntryBase::is_backend_owned (snmalloc). *)
Definition is_backend_owned (c : cfg) (e : entry) : bool :=
  Z.land (e_ras e) (backend_marker c) =? backend_marker c.
(** claim_for_backend on a fresh entry (snmalloc). *)
Definition backend_entry (c : cfg) : entry := Entry 0 (backend_marker c).

(** ** The pagemap *)

(** One entry per chunk of the address space, indexed by address / chunk. *)
Definition pagemap := Z -> entry.

(** pagemap.set(a, t): snmalloc's entry assignment keeps the boundary bit of
    the entry that is overwritten. *)
Definition assign (old new : entry) : entry :=
  Entry (Z.lor (Z.ldiff (e_meta new) META_BOUNDARY_BIT)
               (Z.land (e_meta old) META_BOUNDARY_BIT))
        (e_ras new).
Definition pm_set (pm : pagemap) (i : Z) (t : entry) : pagemap :=
  fun j => if j =? i then assign (pm i) t else pm j.

(** The number of iterations of `for (a = p; a < p + size; a += chunk)`;
    p + size does not wrap for addresses of a mapped region. *)
Definition chunk_steps (c : cfg) (size : Z) : nat := Z.to_nat ((size + chunk c - 1) / chunk c).

Fixpoint set_loop (c : cfg) (n : nat) (a : Z) (t : entry) (pm : pagemap) : pagemap :=
  match n with
  | O => pm
  | S m => set_loop c m (a + chunk c) t (pm_set pm (a / chunk c) t)
  end.
(** Pagemap::set_metaentry, include/process_sandbox/sandbox.h 180-189.  The
    loop runs under the pagemap lock. *)
Definition set_metaentry (c : cfg) (pm : pagemap) (p size : Z) (t : entry) : pagemap :=
  set_loop c (chunk_steps c size) p t pm.

(** ** Sandboxes *)

(** What the host keeps for one Library: where its shared memory of 2^b_bits
    bytes is, and the free blocks of its memory_provider.  [b_live] becomes
    false when the Library is destroyed. *)
Record sbx := Sbx { b_shm : Z; b_bits : nat; b_free : list block; b_live : bool }.
Definition region_size (b : sbx) : Z := 2 ^ Z.of_nat (b_bits b).
Definition box_heap (c : cfg) (b : sbx) : heap :=
  library_heap (b_shm b) (region_size b) (hdr_size c).

(** Global host state. *)
Record gstate := GState { g_pm : pagemap; g_box : list sbx }.

Fixpoint upd {A} (i : nat) (v : A) (l : list A) : list A :=
  match l, i with
  | [], _ => []
  | _ :: r, O => v :: r
  | x :: r, S k => x :: upd k v r
  end.

(** ** Requests from sandboxes *)

(** HostServiceRequest and HostServiceResponse, src/host_service_calls.h. *)
Record request := Request { rq_kind : Z; rq_0 : Z; rq_1 : Z; rq_2 : Z; rq_3 : Z }.
Record response := Response { rs_error : Z; rs_ret : Z }.

(** snmalloc::bits::is_pow2. *)
Definition is_pow2 (x : Z) : bool := Z.land x (wrap (x - 1)) =? 0.

(** The lambda is_metaentry_valid, src/libsandbox.cc 152-159. *)
Definition is_metaentry_valid (c : cfg) (b : sbx) (size : Z) (e : entry) : bool :=
  ((remote_of c (e_ras e) =? 0)
   || contains (box_heap c b) (remote_of c (e_ras e)) (remote_size c))
  && (class_bytes c (e_ras e) <=? size).

(** The ownership scan of DeallocChunk, src/libsandbox.cc 227-238. *)
Fixpoint all_sandbox_owned (c : cfg) (pm : pagemap) (n : nat) (a : Z) : bool :=
  match n with
  | O => true
  | S m => is_sandbox_owned (pm (a / chunk c)) && all_sandbox_owned c pm m (a + chunk c)
  end.

(** case AllocChunk, src/libsandbox.cc 164-204. *)
Definition service_alloc (c : cfg) (pm : pagemap) (b : sbx) (rq : request)
  : pagemap * sbx * response :=
  let size := rq_0 rq in
  if (size <? chunk c) || negb (is_pow2 size) then (pm, b, Response 3 0)
  else
    let e := Entry (rq_1 rq) (rq_2 rq) in
    if negb (is_metaentry_valid c b size e) then (pm, b, Response 1 0)
    else
      match alloc_range (b_free b) size with
      | None => (pm, b, Response 2 0)
      | Some (a, free') =>
        (set_metaentry c pm a size (claim_for_sandbox e),
         Sbx (b_shm b) (b_bits b) free' (b_live b),
         Response 0 a)
      end.

(** Backend::dealloc_range, include/process_sandbox/sandbox.h 362-373. *)
Definition backend_dealloc (c : cfg) (pm : pagemap) (b : sbx) (a size : Z) : pagemap * sbx :=
  (set_metaentry c pm a size (backend_entry c),
   Sbx (b_shm b) (b_bits b) (dealloc_range (b_free b) a size) (b_live b)).

(** case DeallocChunk, src/libsandbox.cc 205-247. *)
Definition service_dealloc (c : cfg) (pm : pagemap) (b : sbx) (rq : request)
  : pagemap * sbx * response :=
  let ptr := rq_0 rq in
  let size := rq_1 rq in
  if negb (contains (box_heap c b) ptr size) then (pm, b, Response 1 0)
  else if negb (is_pow2 size && (chunk c <=? size)) then (pm, b, Response 2 0)
  else if negb (align_down ptr (chunk c) =? ptr) then (pm, b, Response 3 0)
  else if negb (all_sandbox_owned c pm (chunk_steps c size) ptr) then (pm, b, Response 4 0)
  else let '(pm', b') := backend_dealloc c pm b ptr size in (pm', b', Response 0 0).

(** The switch of MemoryServiceProvider::run, src/libsandbox.cc 148-249:
    AllocChunk = 0, DeallocChunk = 1, anything else falls through with the
    initial reply {0, 0}.  Simplification: the request runs atomically; the
    host's locks make its allocator update and its pagemap update two separate
    critical sections.  MemConcModel.v has them as separate steps, and
    MemConcProps.v proves that this makes no difference to the results. *)
Definition service (c : cfg) (pm : pagemap) (b : sbx) (rq : request)
  : pagemap * sbx * response :=
  if rq_kind rq =? 0 then service_alloc c pm b rq
  else if rq_kind rq =? 1 then service_dealloc c pm b rq
  else (pm, b, Response 0 0).

(** ** The host's own allocations in a sandbox *)

(** Backend::alloc_chunk, include/process_sandbox/sandbox.h 335-355.
    [metaptr] is the address of the new SlabMetadata.  Error 1 stands for the
    {nullptr, nullptr} result. *)
Definition host_alloc (c : cfg) (pm : pagemap) (b : sbx) (size ras metaptr : Z)
  : pagemap * sbx * response :=
  match alloc_range (b_free b) size with
  | None => (pm, b, Response 1 0)
  | Some (a, free') =>
    (set_metaentry c pm a size (Entry metaptr ras),
     Sbx (b_shm b) (b_bits b) free' (b_live b),
     Response 0 a)
  end.

(** Backend::dealloc_chunk, include/process_sandbox/sandbox.h 378-388 (the
    `delete` of the metadata is host memory and not modelled here). *)
Definition host_free (c : cfg) (pm : pagemap) (b : sbx) (a size : Z)
  : pagemap * sbx * response :=
  let '(pm', b') := backend_dealloc c pm b a size in (pm', b', Response 0 0).

(** ** Creating and destroying a Library (pagemap and allocator part) *)

(** Library::Library -> LocalState, src/libsandbox.cc 55-67, 865-869. *)
Definition new_box (c : cfg) (shm : Z) (bits : nat) : sbx :=
  Sbx shm bits
      (initial_free (chunk c) (shm + hdr_size c) (2 ^ Z.of_nat bits - hdr_size c))
      true.

(** The loop of Library::~Library, src/libsandbox.cc 757-788: returns the new
    pagemap and the pointers passed to `delete`, in order. *)
Fixpoint destroy_loop (c : cfg) (n : nat) (a : Z) (pm : pagemap) : pagemap * list Z :=
  match n with
  | O => (pm, [])
  | S m =>
    let e := pm (a / chunk c) in
    let del :=
      if negb (is_backend_owned c e)
      then if negb (is_sandbox_owned e) && negb (remote_of c (e_ras e) =? 0)
           then [get_slab_metadata e] else []
      else [] in
    let '(pm', ds) := destroy_loop c m (a + chunk c) (pm_set pm (a / chunk c) empty_entry) in
    (pm', del ++ ds)
  end.
Definition library_destroy (c : cfg) (pm : pagemap) (b : sbx) : pagemap * list Z :=
  let h := box_heap c b in
  destroy_loop c (chunk_steps c (h_top h - h_base h)) (h_base h) pm.

(** ** Histories *)

(** What can happen to the memory of a process using sandboxes.  [i] numbers
    the Library objects in creation order. *)
Inductive event :=
| EvReq (i : nat) (rq : request)               (* a request from sandbox i *)
| EvHostAlloc (i : nat) (size ras metaptr : Z) (* the host needs a chunk of i *)
| EvHostFree (i : nat) (a size : Z)            (* the host returns a chunk *)
| EvCreate (shm : Z) (bits : nat)              (* a Library is constructed *)
| EvDestroy (i : nat).                         (* a Library is destroyed *)

(** Run [f] on sandbox i if it exists and is live, otherwise do nothing (the
    service ignores descriptors it does not know, src/libsandbox.cc 127-136). *)
Definition on_box (st : gstate) (i : nat)
  (f : pagemap -> sbx -> pagemap * sbx * response) : gstate * response :=
  match nth_error (g_box st) i with
  | Some b =>
    if b_live b then
      let '(pm', b', r) := f (g_pm st) b in (GState pm' (upd i b' (g_box st)), r)
    else (st, Response 99 0)
  | None => (st, Response 99 0)
  end.

Definition step (c : cfg) (st : gstate) (ev : event) : gstate * response :=
  match ev with
  | EvReq i rq => on_box st i (fun pm b => service c pm b rq)
  | EvHostAlloc i size ras mp => on_box st i (fun pm b => host_alloc c pm b size ras mp)
  | EvHostFree i a size => on_box st i (fun pm b => host_free c pm b a size)
  | EvCreate shm bits => (GState (g_pm st) (g_box st ++ [new_box c shm bits]), Response 0 0)
  | EvDestroy i =>
    on_box st i (fun pm b =>
      (fst (library_destroy c pm b), Sbx (b_shm b) (b_bits b) (b_free b) false, Response 0 0))
  end.

(** A process starts without sandboxes and with an empty pagemap. *)
Definition init_state : gstate := GState (fun _ => empty_entry) [].

(** The state after a history and the replies, in order. *)
Fixpoint run (c : cfg) (st : gstate) (evs : list event) : gstate * list (event * response) :=
  match evs with
  | [] => (st, [])
  | ev :: r =>
    let '(st1, rs) := step c st ev in
    let '(st2, tr) := run c st1 r in
    (st2, (ev, rs) :: tr)
  end.
