(** Specification vocabulary for the memory service: who owns which byte, as
    an outside observer of requests and replies would account for it. *)
From Coq Require Import List ZArith Bool.
From Verif Require Import Base RegionSpec MemSvcModel.
Import ListNotations.
Open Scope Z_scope.

Inductive who := Nobody | Host | Sandbox.

(** A region handed to a sandbox: start, log2 of its size, still alive. *)
Record region := Region { r_start : Z; r_bits : nat; r_live : bool }.
Definition r_end (r : region) : Z := r_start r + 2 ^ Z.of_nat (r_bits r).

(** The observer's books. *)
Record book := Book { owner : Z -> who; regions : list region }.

Definition set_owner (f : Z -> who) (a n : Z) (w : who) : Z -> who :=
  fun x => if (a <=? x) && (x <? a + n) then w else f x.

(** How an observed event and its reply change the books.  Replies with a
    non-zero error change nothing. *)
Definition note (bk : book) (er : event * response) : book :=
  let '(ev, rs) := er in
  if rs_error rs =? 0 then
    match ev with
    | EvReq _ rq =>
      if rq_kind rq =? 0
      then Book (set_owner (owner bk) (rs_ret rs) (rq_0 rq) Sandbox) (regions bk)
      else if rq_kind rq =? 1
      then Book (set_owner (owner bk) (rq_0 rq) (rq_1 rq) Nobody) (regions bk)
      else bk
    | EvHostAlloc _ size _ _ => Book (set_owner (owner bk) (rs_ret rs) size Host) (regions bk)
    | EvHostFree _ a size => Book (set_owner (owner bk) a size Nobody) (regions bk)
    | EvCreate shm bits => Book (owner bk) (regions bk ++ [Region shm bits true])
    | EvDestroy i =>
      match nth_error (regions bk) i with
      | Some r => Book (set_owner (owner bk) (r_start r) (2 ^ Z.of_nat (r_bits r)) Nobody)
                       (upd i (Region (r_start r) (r_bits r) false) (regions bk))
      | None => bk
      end
    end
  else bk.
Definition empty_book : book := Book (fun _ => Nobody) [].
Definition books (tr : list (event * response)) : book := fold_left note tr empty_book.

(** ** What the environment promises *)

(** The constants make sense: chunks are larger than two headers, and an empty
    remote word decodes to the null pointer. *)
Definition cfg_ok (c : cfg) : Prop :=
  (3 <= cbits c)%nat /\ 0 < hdr_size c /\ 2 * hdr_size c <= chunk c /\
  is_word (remote_size c) /\
  remote_of c 0 = 0 /\
  (forall ras, is_word (remote_of c ras)).

(** The kernel maps the region naturally aligned (proved in MapProps.v), in
    the user address space, apart from every live region. *)
Definition fresh_region (c : cfg) (bk : book) (shm : Z) (bits : nat) : Prop :=
  (cbits c < bits)%nat /\ (bits <= 62)%nat /\ 0 < shm /\ (2 ^ Z.of_nat bits | shm) /\
  shm + 2 ^ Z.of_nat bits < W /\
  (forall r, In r (regions bk) -> r_live r = true ->
             r_end r <= shm \/ shm + 2 ^ Z.of_nat bits <= r_start r).

(** A block size the allocator deals in. *)
Definition chunk_size (c : cfg) (size : Z) : Prop :=
  exists n, Z.of_nat (cbits c) <= n /\ size = 2 ^ n.

(** The block lies in live region i. *)
Definition in_region (bk : book) (i : nat) (a size : Z) : Prop :=
  exists r, nth_error (regions bk) i = Some r /\ r_live r = true /\
            r_start r <= a /\ a + size <= r_end r.

(** The request's words are 64-bit words. *)
Definition request_words (rq : request) : Prop :=
  is_word (rq_0 rq) /\ is_word (rq_1 rq) /\ is_word (rq_2 rq).

(** Arbitrary sandboxes, a host that only uses its allocator sensibly: it
    asks for power-of-two chunk sizes, its metadata pointers are 16-byte
    aligned, and it frees chunk-aligned blocks of the region. *)
Definition hostile_ok (c : cfg) (bk : book) (ev : event) : Prop :=
  match ev with
  | EvReq _ rq => request_words rq
  | EvHostAlloc _ size _ mp => chunk_size c size /\ (16 | mp) /\ 0 <= mp
  | EvHostFree i a size => chunk_size c size /\ (chunk c | a) /\ in_region bk i a size
  | EvCreate shm bits => fresh_region c bk shm bits
  | EvDestroy _ => True
  end.

(** In addition every DeallocChunk is naturally aligned, and the host frees
    naturally aligned blocks that it owns. *)
Definition polite_ok (c : cfg) (bk : book) (ev : event) : Prop :=
  hostile_ok c bk ev /\
  match ev with
  | EvReq _ rq => rq_kind rq = 1 -> (rq_1 rq | rq_0 rq)
  | EvHostFree i a size =>
    (size | a) /\ (forall x, a <= x < a + size -> owner bk x = Host)
  | _ => True
  end.

(** Every event of the history meets the condition when it happens. *)
Fixpoint admissible (P : book -> event -> Prop) (c : cfg) (st : gstate) (bk : book)
  (evs : list event) : Prop :=
  match evs with
  | [] => True
  | ev :: r =>
    P bk ev /\
    let '(st1, rs) := step c st ev in admissible P c st1 (note bk (ev, rs)) r
  end.
Definition hostile_history (c : cfg) (evs : list event) : Prop :=
  admissible (hostile_ok c) c init_state empty_book evs.
Definition polite_history (c : cfg) (evs : list event) : Prop :=
  admissible (polite_ok c) c init_state empty_book evs.

(** The metadata pointers the host itself stored. *)
Definition host_pointers (evs : list event) : list Z :=
  flat_map (fun ev => match ev with EvHostAlloc _ _ _ mp => [mp] | _ => [] end) evs.

(** Metadata a sandbox may install for a block of [size] bytes in region [r]:
    its message queue is null or lies, whole, in the heap part of [r], and its
    size class is not larger than the block. *)
Definition queue_ok (c : cfg) (r : region) (ras : Z) : Prop :=
  remote_of c ras = 0 \/
  (r_start r + 2 * hdr_size c <= remote_of c ras /\ remote_of c ras + remote_size c <= r_end r /\
   remote_of c ras < r_end r).
Definition metadata_ok (c : cfg) (r : region) (size ras : Z) : Prop :=
  queue_ok c r ras /\ class_bytes c ras <= size.

(** An entry as an observer sees it: owner bit, slab pointer, second word. *)
Definition entry_is_clear (e : entry) : Prop :=
  is_sandbox_owned e = false /\ get_slab_metadata e = 0 /\ e_ras e = 0.
