(** The requests of the memory service, with the entries of the pagemap they touch
    recorded.  [counted_service] is [service] of MemSvcModel.v with a list beside the
    result; WorkProps.v proves that forgetting the list gives back [service]. *)
From Coq Require Import List ZArith Bool.
From Verif Require Import Base RegionModel BuddyModel MemSvcModel.
Import ListNotations.
Local Open Scope Z_scope.

(** Pagemap::set_metaentry, include/process_sandbox/sandbox.h 180-189: one entry
    written in each round of the loop.  The list has the address whose entry it is. *)
Fixpoint counted_set (c : cfg) (n : nat) (a : Z) (t : entry) (pm : pagemap) : pagemap * list Z :=
  match n with
  | O => (pm, [])
  | S m => let '(pm', l) := counted_set c m (a + chunk c) t (pm_set pm (a / chunk c) t) in (pm', a :: l)
  end.
(** The ownership scan of DeallocChunk, src/libsandbox.cc 227-238: the `break` leaves
    the loop at the first entry that is not the sandbox's. *)
Fixpoint counted_scan (c : cfg) (pm : pagemap) (n : nat) (a : Z) : bool * list Z :=
  match n with
  | O => (true, [])
  | S m => if is_sandbox_owned (pm (a / chunk c))
           then let '(r, l) := counted_scan c pm m (a + chunk c) in (r, a :: l) else (false, [a])
  end.
(** case AllocChunk, src/libsandbox.cc 164-204.  Checking the entry the sandbox sent
    (is_metaentry_valid, 152-159) looks at that value, not at the pagemap. *)
Definition counted_alloc (c : cfg) (pm : pagemap) (b : sbx) (rq : request) : (pagemap * sbx * response) * list Z :=
  let size := rq_0 rq in
  if (size <? chunk c) || negb (is_pow2 size) then ((pm, b, Response 3 0), [])
  else
    let e := Entry (rq_1 rq) (rq_2 rq) in
    if negb (is_metaentry_valid c b size e) then ((pm, b, Response 1 0), [])
    else
      match alloc_range (b_free b) size with
      | None => ((pm, b, Response 2 0), [])
      | Some (a, free') =>
        let '(pm', l) := counted_set c (chunk_steps c size) a (claim_for_sandbox e) pm in
        ((pm', Sbx (b_shm b) (b_bits b) free' (b_live b), Response 0 a), l)
      end.
(** case DeallocChunk, src/libsandbox.cc 205-247, and Backend::dealloc_range,
    include/process_sandbox/sandbox.h 362-373. *)
Definition counted_dealloc (c : cfg) (pm : pagemap) (b : sbx) (rq : request) : (pagemap * sbx * response) * list Z :=
  let ptr := rq_0 rq in
  let size := rq_1 rq in
  if negb (contains (box_heap c b) ptr size) then ((pm, b, Response 1 0), [])
  else if negb (is_pow2 size && (chunk c <=? size)) then ((pm, b, Response 2 0), [])
  else if negb (align_down ptr (chunk c) =? ptr) then ((pm, b, Response 3 0), [])
  else
    let '(mine, l) := counted_scan c pm (chunk_steps c size) ptr in
    if negb mine then ((pm, b, Response 4 0), l)
    else
      let '(pm', l') := counted_set c (chunk_steps c size) ptr (backend_entry c) pm in
      ((pm', Sbx (b_shm b) (b_bits b) (dealloc_range (b_free b) ptr size) (b_live b), Response 0 0), l ++ l').
(** The switch of MemoryServiceProvider::run, src/libsandbox.cc 148-249. *)
Definition counted_service (c : cfg) (pm : pagemap) (b : sbx) (rq : request) : (pagemap * sbx * response) * list Z :=
  if rq_kind rq =? 0 then counted_alloc c pm b rq
  else if rq_kind rq =? 1 then counted_dealloc c pm b rq
  else ((pm, b, Response 0 0), []).
