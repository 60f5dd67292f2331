(** Model of the block allocator behind a sandbox heap.

    The repository instantiates snmalloc's LargeBuddyRange over a fixed range
    (include/process_sandbox/sandbox.h 249-255, src/libsandbox.cc 55-67).
    snmalloc is an external dependency whose source is not in /repo; this file
    is a model of the documented behaviour of its buddy allocator (buddy.h:
    add_block, remove_block; range_helpers.h: range_to_pow_2_blocks) and is
    part of the trusted base.  Simplifications: the red-black trees, one per
    size, are one list of (address, size) pairs; no chunk has the "boundary"
    bit that forbids merging (nothing in /repo sets it); the tree links that
    snmalloc keeps in the pagemap entries of free chunks are not represented.
    No proofs in this file. *)
From Coq Require Import List ZArith Bool.
From Verif Require Import Base.
Import ListNotations.
Open Scope Z_scope.

(** A block: address and size in bytes. *)
Notation block := (Z * Z)%type.

Definition block_eqb (x y : block) : bool := (fst x =? fst y) && (snd x =? snd y).

Definition mem_block (x : block) (l : list block) : bool := existsb (block_eqb x) l.

(** Remove the first occurrence. *)
Fixpoint del_block (x : block) (l : list block) : list block :=
  match l with
  | [] => []
  | y :: r => if block_eqb x y then r else y :: del_block x r
  end.

(** pointer_align_down(a, s) for a power of two s. *)
Definition align_down (a s : Z) : Z := a - a mod s.
(** pointer_align_up(a, s) for a power of two s. *)
Definition align_up (a s : Z) : Z := align_down (a + s - 1) s.

(** Buddy::add_block(addr, size): if the buddy (addr xor size) is free, take
    it out, align down to the double size and add the double block; otherwise
    insert.  [fuel] bounds the number of merges; each merge removes a block. *)
Fixpoint add_block_f (fuel : nat) (free : list block) (a s : Z) : list block :=
  match fuel with
  | O => (a, s) :: free
  | S f =>
    let b := Z.lxor a s in
    if mem_block (b, s) free
    then add_block_f f (del_block (b, s) free) (align_down a (2 * s)) (2 * s)
    else (a, s) :: free
  end.
Definition add_block (free : list block) (a s : Z) : list block :=
  add_block_f (length free) free a s.

(** The lowest free block of exactly size s (RBTree::remove_min). *)
Fixpoint min_block (l : list block) (s : Z) : option Z :=
  match l with
  | [] => None
  | (a, s') :: r =>
    if s' =? s then
      match min_block r s with
      | None => Some a
      | Some b => Some (Z.min a b)
      end
    else min_block r s
  end.

(** Buddy::remove_block(size): take a block of this size, or split a larger
    one, keeping the lower half.  [fuel] is the number of doublings allowed. *)
Fixpoint remove_block_f (fuel : nat) (free : list block) (s : Z) : option (Z * list block) :=
  match min_block free s with
  | Some a => Some (a, del_block (a, s) free)
  | None =>
    match fuel with
    | O => None
    | S f =>
      match remove_block_f f free (2 * s) with
      | None => None
      | Some (a, free') => Some (a, add_block free' (a + s) s)
      end
    end
  end.
(** LargeBuddyRange<BITS-1, BITS-1>::alloc_range over an EmptyRange: sizes up
    to 2^62 can be served, no refill. *)
Definition alloc_range (free : list block) (s : Z) : option (Z * list block) :=
  remove_block_f 64 free s.

(** dealloc_range. *)
Definition dealloc_range (free : list block) (a s : Z) : list block := add_block free a s.

(** The exponent of the largest power of two dividing a (count trailing
    zeros), up to [fuel] bits. *)
Fixpoint ctz_f (fuel : nat) (a : Z) : Z :=
  match fuel with
  | O => 0
  | S f => if Z.even a then 1 + ctz_f f (a / 2) else 0
  end.

(** range_to_pow_2_blocks: peel off maximal naturally aligned power-of-two
    blocks from the start of [base, base+length).  [fuel] bounds the number of
    blocks. *)
Fixpoint pow2_blocks_f (fuel : nat) (base len : Z) : list block :=
  match fuel with
  | O => []
  | S f =>
    if len <? 8 then []
    else
      let al := 2 ^ Z.min (ctz_f 64 base) (Z.log2 len) in
      (base, al) :: pow2_blocks_f f (base + al) (len - al)
  end.
(** At most 64 blocks while the alignment grows and 64 while the remaining
    length shrinks. *)
Definition pow2_blocks (chunk start size : Z) : list block :=
  let base := align_up start chunk in
  let stop := align_down (start + size) chunk in
  pow2_blocks_f 130 base (stop - base).

(** LocalState::LocalState, src/libsandbox.cc 59-66: every block is given to
    the allocator in turn. *)
Definition initial_free (chunk start size : Z) : list block :=
  fold_left (fun fr b => dealloc_range fr (fst b) (snd b)) (pow2_blocks chunk start size) [].
