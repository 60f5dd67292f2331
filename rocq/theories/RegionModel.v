(** Model of the bounds checks on sandbox memory and of the helpers that copy
    data in and out of a sandbox: SharedAllocConfig::LocalState (bounds part),
    Library::alloc, alloc_in_sandbox, strdup and strdup_out.
    No proofs in this file. *)
From Coq Require Import String Ascii List ZArith Bool.
From Verif Require Import Base.
Import ListNotations.
Open Scope Z_scope.

(** The bounds that LocalState remembers, together with the compile-time
    constant sizeof(SharedMemoryRegion) used by [contains].
    include/process_sandbox/sandbox.h 234-262 (fields base, top). *)
Record heap := Heap { h_base : Z; h_top : Z; h_hdr : Z }.

(** pointer_offset(p, n) on 64-bit addresses (snmalloc helper). *)
Definition pointer_offset (p n : Z) : Z := wrap (p + n).

(** pointer_diff(p, q) = q - p as a size_t (snmalloc helper). *)
Definition pointer_diff (p q : Z) : Z := wrap (q - p).

(** LocalState::LocalState, src/libsandbox.cc 55-56: base = start,
    top = start + size.  (The part that fills the buddy allocator is in
    BuddyModel.v.) *)
Definition local_state (start size hdr : Z) : heap :=
  Heap start (pointer_offset start size) hdr.

(** The arguments Library::Library passes, src/libsandbox.cc 865-869: the
    heap starts right after the header at the start of the mapping [shm] of
    [size] bytes.  [hdr] is sizeof(SharedMemoryRegion). *)
Definition library_heap (shm size hdr : Z) : heap :=
  local_state (pointer_offset shm hdr) (wrap (size - hdr)) hdr.

(** LocalState::contains, include/process_sandbox/sandbox.h 291-295. *)
Definition contains (h : heap) (ptr sz : Z) : bool :=
  (pointer_offset (h_base h) (h_hdr h) <=? ptr)
  && (ptr <? h_top h)
  && (sz <=? pointer_diff ptr (h_top h)).

(** SharedAllocConfig::capptr_domesticate,
    include/process_sandbox/sandbox.h 438-452.  [objsize] is sizeof(T), or
    sizeof(void* ) when T is void.  The null pointer is 0. *)
Definition capptr_domesticate (h : heap) (objsize p : Z) : Z :=
  if contains h p objsize then p else 0.

(** Library::sandbox_heap, include/process_sandbox/sandbox.h 782-785. *)
Definition sandbox_heap (h : heap) : Z * Z := (h_base h, h_top h).

(** ** Reading memory that somebody else may be changing *)

(** The adversary: [rd t a] is the byte that a load of address [a] returns if
    it is the [t]-th load of the operation.  Quantifying over all [rd] covers
    every interleaving of writes by the sandbox. *)
Definition reads := nat -> Z -> ascii.

(** strnlen(str, maxlen): loads str[0], str[1], ... until a NUL or until
    maxlen bytes were looked at.  Returns the length, the number of loads and
    the addresses loaded.  Simplification: byte-wise loads; a vectorised
    strnlen may load whole aligned words. *)
Fixpoint strnlen (rd : reads) (t : nat) (p : Z) (maxlen : nat) : Z * nat * list Z :=
  match maxlen with
  | O => (0, t, [])
  | S m =>
    if ascii_dec (rd t p) nul then (0, S t, [p])
    else let '(n, t', tr) := strnlen rd (S t) (p + 1) m in (n + 1, t', p :: tr)
  end.

(** memcpy(dst, p, n): loads each of the n bytes once, in increasing order. *)
Fixpoint memcpy_out (rd : reads) (t : nat) (p : Z) (n : nat) : list ascii * nat * list Z :=
  match n with
  | O => ([], t, [])
  | S m => let '(bs, t', tr) := memcpy_out rd (S t) (p + 1) m in (rd t p :: bs, t', p :: tr)
  end.

(** The result of strdup_out: a null pointer, or a private buffer with all the
    bytes that were allocated for it; plus the addresses that were read. *)
Record dup_result := DupResult { dup_buf : option (list ascii); dup_trace : list Z }.

(** Library::strdup_out, include/process_sandbox/sandbox.h 751-768.
    [malloc_ok] is whether malloc(len + 1) succeeds: the code does not test
    the pointer, so a failure makes memcpy and the final store write through a
    null pointer (undefined behaviour). *)
Definition strdup_out (h : heap) (rd : reads) (malloc_ok : bool) (str : Z)
  : outcome dup_result :=
  if contains h str 1 then
    let maxlen := h_top h - str in
    let '(len, t, tr) := strnlen rd 0 str (Z.to_nat maxlen) in
    if len =? maxlen then Ret (DupResult None tr)
    else if malloc_ok then
      let '(bytes, _, tr2) := memcpy_out rd t str (Z.to_nat len) in
      Ret (DupResult (Some (bytes ++ [nul])) (tr ++ tr2))
    else UB
  else Ret (DupResult None []).

(** ** Allocation in the sandbox *)

(** Library::alloc_in_sandbox, src/libsandbox.cc 1020-1029.  The result is the
    number of bytes requested from the allocator, or None for the early
    nullptr.  bits::umul is __builtin_mul_overflow on 64-bit words. *)
Definition umul (a b : Z) : Z * bool := (wrap (a * b), W <=? a * b).
Definition alloc_request (bytes count : Z) : option Z :=
  let '(sz, overflow) := umul bytes count in
  if overflow then None else Some sz.

(** A block obtained from the sandbox allocator: its address and the bytes
    the host stored into it. *)
Record placed := Placed { pl_addr : Z; pl_requested : Z; pl_stored : list (Z * ascii) }.

(** [bytes_from p bs] are the stores of the bytes [bs] at [p], [p+1], ... *)
Fixpoint bytes_from (p : Z) (bs : list ascii) : list (Z * ascii) :=
  match bs with
  | [] => []
  | b :: r => (p, b) :: bytes_from (p + 1) r
  end.

(** Library::alloc<T>(count), include/process_sandbox/sandbox.h 642-657:
    request sizeof(T) * count bytes, give up on null, else value-initialise
    each element (for a POD type: zero all its bytes).  [allocator] answers a
    request with an address, 0 for failure. *)
Definition alloc_array (allocator : Z -> Z) (tsize count : Z) : option placed :=
  match alloc_request tsize count with
  | None => None
  | Some sz =>
    let p := allocator sz in
    if p =? 0 then None
    else Some (Placed p sz (bytes_from p (repeat nul (Z.to_nat (count * tsize)))))
  end.

(** Library::alloc<T>(args...), include/process_sandbox/sandbox.h 708-721:
    request sizeof(T) bytes, give up on null, else construct the object there.
    [image] is what the constructor leaves in memory, sizeof(T) bytes. *)
Definition alloc_object (allocator : Z -> Z) (image : list ascii) : option placed :=
  match alloc_request (Z.of_nat (length image)) 1 with
  | None => None
  | Some sz =>
    let p := allocator sz in
    if p =? 0 then None else Some (Placed p sz (bytes_from p image))
  end.

(** Which of the overloads 642 and 708-709 a call alloc<T>(n) with one integer
    argument selects, by the rules of C++: for an argument of type size_t
    (lvalue, const or temporary) both match exactly and the array overload is
    the more specialised template; for any other integer type, such as that of
    the literal 8, the array overload needs an integral conversion and the
    forwarding overload matches exactly.  [image] is the object T(n). *)
Inductive integer_type := SizeT | OtherInteger.
Definition alloc_call (allocator : Z -> Z) (ty : integer_type) (n : Z) (image : list ascii) : option placed :=
  match ty with
  | SizeT => alloc_array allocator (Z.of_nat (length image)) n
  | OtherInteger => alloc_object allocator image
  end.

(** Library::strdup, include/process_sandbox/sandbox.h 734-744.  [s] is the
    host's C string (without its NUL). *)
Definition strdup_in (allocator : Z -> Z) (s : list ascii) : option placed :=
  let len := Z.of_nat (length s) in
  match alloc_array allocator 1 len with
  | None => None
  | Some pl => Some (Placed (pl_addr pl) (pl_requested pl)
                            (pl_stored pl ++ bytes_from (pl_addr pl) s))
  end.

(** ** The size of a sandbox *)

(** snmalloc::bits::next_pow2_bits(x) = 64 - clz(x - 1): the number of bits
    of x-1.  For x = 0 the subtraction wraps. *)
Definition next_pow2_bits (x : Z) : Z :=
  let y := wrap (x - 1) in if y =? 0 then 0 else Z.log2 y + 1.

(** The shared memory size that Library::Library(name, size) asks for,
    src/libsandbox.cc 865-866 (size << 30 on size_t), and
    SharedMemoryMapBase, include/process_sandbox/platform/shm_posix.h 203-210
    (1 << log2size; a shift by 64 is undefined). *)
Definition library_map_size (size : Z) : outcome Z :=
  let b := next_pow2_bits (wrap (Z.shiftl size 30)) in
  if b <? 64 then Ret (2 ^ b) else UB.
