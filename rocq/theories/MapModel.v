(** Model of the code that maps shared memory naturally aligned
    (include/process_sandbox/platform/shm_posix.h), of the child's over-
    allocating range (src/child_malloc.h) and of the environment variable that
    tells the child where the region is (src/libsandbox.cc start_child,
    src/library_runner.cc bootstrap).  No proofs in this file. *)
From Coq Require Import String Ascii List ZArith Bool.
From Verif Require Import Base BuddyModel.
Import ListNotations.
Open Scope Z_scope.

(** ** Address spaces and the system calls on them *)

(** What is mapped at a byte: nothing, a private anonymous mapping, byte [off]
    of the shared memory object, or anything that was there before. *)
Inductive cell := Unmapped | Anon | Obj (off : Z) | Foreign (id : Z).
Definition aspace := Z -> cell.

Definition fill (m : aspace) (a n : Z) (f : Z -> cell) : aspace :=
  fun x => if (a <=? x) && (x <? a + n) then f x else m x.

(** mmap and munmap as they succeed; munmap with an address that is not page
    aligned or with an empty range fails with EINVAL and does nothing. *)
Inductive op :=
| MapAnon (a n : Z)      (* mmap(0, n, PROT_NONE, MAP_PRIVATE|MAP_ANON) = a *)
| MapObj (a n : Z)       (* mmap(a, n, ..., MAP_SHARED[|MAP_FIXED], fd, 0) = a *)
| Unmap (a n : Z).       (* munmap(a, n) *)
Definition apply_op (page : Z) (m : aspace) (o : op) : aspace :=
  match o with
  | MapAnon a n => fill m a n (fun _ => Anon)
  | MapObj a n => fill m a n (fun x => Obj (x - a))
  | Unmap a n =>
    if (a mod page =? 0) && (0 <? n) then fill m a n (fun _ => Unmapped) else m
  end.
Definition apply_ops (page : Z) (m : aspace) (os : list op) : aspace :=
  fold_left (apply_op page) os m.

(** snmalloc's pointer_offset, pointer_align_up and pointer_diff on 64-bit
    addresses. *)
Definition p_off (p n : Z) : Z := wrap (p + n).
Definition p_align_up (p n : Z) : Z := wrap (align_up p n).
Definition p_diff (p q : Z) : Z := wrap (q - p).

(** MAP_FAILED. *)
Definition MAP_FAILED : Z := W - 1.

(** ** SharedMemoryMapPOSIX, shm_posix.h 203-210 and 276-326 *)

(** [mmap_any] is the kernel's answer to the first mmap (an address or
    MAP_FAILED), [fixed_ok] whether the MAP_FIXED mmap succeeds.  The result is
    the system calls that had an effect, in order, and map_address.
    size = one_at_bit(log2_size) (203-204); a shift by 64 or more is
    undefined.  ftruncate is assumed to succeed (otherwise the constructor
    aborts, 208-209). *)
Definition shm_map (page : Z) (log2_size : Z) (mmap_any : Z) (fixed_ok : bool)
  : outcome (list op * Z) :=
  if negb (log2_size <? 64) then UB
  else
    let size := 2 ^ log2_size in
    if page <? size then                                               (* 284 *)
      let region := mmap_any in                                        (* 288-294 *)
      let reserve :=
        if region =? MAP_FAILED then [] else [MapAnon region (wrap (size * 2))] in
      let region_end := p_off region (wrap (size * 2)) in              (* 295 *)
      let aligned_start := p_align_up region size in                   (* 297 *)
      let map_address := if fixed_ok then aligned_start else MAP_FAILED in
      let mapped := if fixed_ok then [MapObj aligned_start size] else [] in
      let map_end := p_off map_address size in                         (* 306-307 *)
      let trim1 :=                                                     (* 309-312 *)
        if region <? aligned_start then [Unmap region (p_diff region aligned_start)] else [] in
      let trim2 :=                                                     (* 313-316 *)
        if map_end <? region_end then [Unmap map_end (p_diff map_end region_end)] else [] in
      Ret (reserve ++ mapped ++ trim1 ++ trim2, map_address)
    else                                                               (* 318-326 *)
      Ret (if mmap_any =? MAP_FAILED then [] else [MapObj mmap_any size], mmap_any).

(** SharedMemoryMapMMapAligned, shm_posix.h 203-210 and 343-352 (systems with
    MAP_ALIGNED, for instance FreeBSD).  [mmap n size] is the kernel's answer to
    mmap(0, size, ..., MAP_ALIGNED(n) | MAP_SHARED, fd, 0). *)
Definition shm_map_mmap_aligned (log2_size : Z) (mmap : Z -> Z -> Z) : outcome (list op * Z) :=
  if negb (log2_size <? 64) then UB
  else
    let size := 2 ^ log2_size in
    let map_address := mmap log2_size size in
    Ret (if map_address =? MAP_FAILED then [] else [MapObj map_address size], map_address).

(** ~SharedMemoryMapPOSIXBase, shm_posix.h 215-221. *)
Definition shm_unmap (log2_size map_address : Z) : list op :=
  if map_address =? MAP_FAILED then [] else [Unmap map_address (2 ^ log2_size)].

(** ** PalRange::alloc_range of the child, src/child_malloc.h 49-77 *)

(** The branch for platforms whose PAL has no aligned allocation.  [alloc] is
    the address the PAL returns for the request of 2 * size bytes, null when it
    fails; the code does not test it for null. *)
Definition pal_alloc_range (size alloc : Z) : list op * Z :=
  let fin := p_off alloc (wrap (size * 2)) in
  let aligned_base := p_align_up alloc size in
  let aligned_end := p_off aligned_base size in
  ((if alloc =? 0 then [] else [MapAnon alloc (wrap (size * 2))])
   ++ (if aligned_end <? fin then [Unmap aligned_end (wrap (fin - aligned_end))] else [])
   ++ (if alloc <? aligned_base then [Unmap alloc (wrap (aligned_base - alloc))] else []),
   aligned_base).

(** ** SANDBOX_LOCATION *)

Definition hex_digit (d : Z) : ascii :=
  ascii_of_nat (Z.to_nat (if d <? 10 then 48 + d else 87 + d)).

(** The digits of %zx: lower case, no leading zeros, "0" for zero; at most 16
    digits for a 64-bit word. *)
Fixpoint hex_f (fuel : nat) (n : Z) : text :=
  match fuel with
  | O => []
  | S f => if n <? 16 then [hex_digit n] else hex_f f (n / 16) ++ [hex_digit (n mod 16)]
  end.
Definition hex (n : Z) : text := hex_f 16 n.

Definition location_name : text := tx "SANDBOX_LOCATION=".
Definition colon : ascii := ":"%char.

(** start_child, src/libsandbox.cc 843-857: snprintf into a 52-byte buffer;
    the invariant aborts when the text did not fit.  The buffer then holds at
    most 51 characters of the text. *)
Definition location_text (addr size : Z) : text :=
  location_name ++ hex addr ++ [colon] ++ hex size.
Definition parent_location (addr size : Z) : outcome text :=
  let t := location_text addr size in
  if (Z.of_nat (List.length t) <? 52) then Ret (firstn 51 t) else Aborts.

(** The value of a hexadecimal digit of either case. *)
Definition hex_value (c : ascii) : option Z :=
  let n := Z.of_nat (nat_of_ascii c) in
  if (48 <=? n) && (n <=? 57) then Some (n - 48)
  else if (97 <=? n) && (n <=? 102) then Some (n - 87)
  else if (65 <=? n) && (n <=? 70) then Some (n - 55)
  else None.
Definition is_space (c : ascii) : bool :=
  let n := Z.of_nat (nat_of_ascii c) in (n =? 32) || ((9 <=? n) && (n <=? 13)).

(** The digit loop of strtoull: the value of the longest digit prefix and the
    rest. *)
Fixpoint digits (acc : Z) (s : text) : Z * text :=
  match s with
  | [] => (acc, [])
  | c :: r => match hex_value c with
              | Some d => digits (acc * 16 + d) r
              | None => (acc, s)
              end
  end.
Fixpoint skip_space (s : text) : text :=
  match s with
  | [] => []
  | c :: r => if is_space c then skip_space r else s
  end.
Definition starts_with_digit (s : text) : bool :=
  match s with
  | c :: _ => match hex_value c with Some _ => true | None => false end
  | [] => false
  end.
(** strtoull(s, &end, 16) of the C library: white space, optional sign,
    optional 0x, digits; saturates at 2^64-1; when there are no digits the
    value is 0 and end = s. *)
Definition strtoull16 (s : text) : Z * text :=
  let t := skip_space s in
  let '(neg, t) :=
    match t with
    | c :: r => if ascii_dec c "-" then (true, r) else if ascii_dec c "+" then (false, r) else (false, t)
    | [] => (false, t)
    end in
  let t :=
    match t with
    | a :: b :: r =>
      if ascii_dec a "0" then
        if (if ascii_dec b "x" then true else if ascii_dec b "X" then true else false)
           && starts_with_digit r
        then r else t
      else t
    | _ => t
    end in
  if starts_with_digit t then
    let '(v, rest) := digits 0 t in
    let v := if W <=? v then W - 1 else if neg then wrap (- v) else v in
    (v, rest)
  else (0, s).

(** strncmp(name, ev, strlen(name)) == 0: ev starts with name. *)
Fixpoint strip_prefix (p s : text) : option text :=
  match p, s with
  | [], _ => Some s
  | a :: p', b :: s' => if ascii_dec a b then strip_prefix p' s' else None
  | _ :: _, [] => None
  end.

(** The loop over environ in bootstrap, src/library_runner.cc 366-386. *)
Fixpoint find_location (env : list text) : outcome (Z * Z) :=
  match env with
  | [] => Ret (0, 0)
  | ev :: r =>
    match strip_prefix location_name ev with
    | Some v =>
      let '(addr, fin) := strtoull16 v in
      match fin with
      | c :: rest => if ascii_dec c colon then Ret (addr, fst (strtoull16 rest)) else Aborts
      | [] => Aborts
      end
    | None => find_location r
    end
  end.
(** bootstrap, src/library_runner.cc 351-391: where the child will map the
    region; DefaultPal::error aborts. *)
Definition bootstrap_location (env : list text) : outcome (Z * Z) :=
  obind (find_location env) (fun '(addr, length) =>
    if (addr =? 0) || (length =? 0) then Aborts else Ret (addr, length)).
