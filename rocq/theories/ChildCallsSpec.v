(** Vocabulary for the properties of the child's callbacks: objects in the
    child's memory, a sound malloc, and what a libc caller observes.
    Independent of the marshalling code. *)
From Coq Require Import String Ascii List ZArith Bool.
From Verif Require Import Base PathModel PathSpec FileTreeModel FileTreeSpec RegionSpec HostCallsModel HostCallsSpec ChildCallsModel.
Import ListNotations.
Open Scope Z_scope.

(** The block lies in the part of the mapping the host accepts. *)
Definition heap_block (shm size hdr p n : Z) : Prop := shm + 2 * hdr <= p /\ p + n <= shm + size.

Definition disjoint (a b : Z * Z) : Prop := fst a + snd a <= fst b \/ fst b + snd b <= fst a.

(** An object of the program: in the heap or entirely outside the mapping. *)
Definition object (shm size hdr p n : Z) : Prop :=
  0 < p /\ 0 < n /\ p + n < W /\ (heap_block shm size hdr p n \/ p + n <= shm \/ shm + size <= p).

(** The objects of the program do not overlap. *)
Definition tidy (shm size hdr : Z) (blocks : list (Z * Z)) : Prop :=
  (forall p n, In (p, n) blocks -> object shm size hdr p n) /\
  (forall b c, In b blocks -> In c blocks -> b = c \/ disjoint b c).

(** The sets of blocks in use that at most [k] allocations of at most [maxn]
    bytes lead to. *)
Inductive grown (alloc : list (Z * Z) -> Z -> Z) (maxn : Z) (start : list (Z * Z))
  : nat -> list (Z * Z) -> Prop :=
| G_start : grown alloc maxn start 0 start
| G_more k bs n : grown alloc maxn start k bs -> 0 < n <= maxn ->
    grown alloc maxn start (S k) ((alloc bs n, n) :: bs).

(** malloc serves the next [room] + 1 requests of up to [maxn] bytes, each with
    a block of the shared heap that overlaps nothing in use. *)
Definition malloc_serves (room : nat) (shm size hdr : Z) (alloc : list (Z * Z) -> Z -> Z) (blocks : list (Z * Z)) (maxn : Z)
  : Prop :=
  forall k bs n, (k <= room)%nat -> grown alloc maxn blocks k bs -> 0 < n <= maxn ->
    heap_block shm size hdr (alloc bs n) n /\ forall b, In b bs -> disjoint (alloc bs n, n) b.

(** The bytes of the object at [p]. *)
Definition holds (m : Z -> ascii) (p : Z) (bs : list ascii) : Prop :=
  forall i b, nth_error bs i = Some b -> m (p + Z.of_nat i) = b.

(** At [q] there is a number of [n] bytes, the lowest byte first; several numbers
    one after the other. *)
Definition number_at (m : Z -> ascii) (q n v : Z) : Prop :=
  0 <= v < 256 ^ n /\ forall i, 0 <= i < n -> Z.of_nat (nat_of_ascii (m (q + i))) = (v / 256 ^ i) mod 256.
Fixpoint numbers_at (m : Z -> ascii) (q : Z) (l : list (Z * Z)) : Prop :=
  match l with
  | [] => True
  | (n, v) :: r => number_at m q n v /\ numbers_at m (q + n) r
  end.

(** Memory after stores of single bytes, in this order. *)
Fixpoint after_stores (m : Z -> ascii) (ss : list (Z * ascii)) : Z -> ascii :=
  match ss with
  | [] => m
  | (a, b) :: r => after_stores (fun x => if x =? a then b else m x) r
  end.

(** The int that is the low half of a word (two's complement), the argument in
    position [i] of a system call. *)
Definition int_of (w : Z) : Z := (w + 2 ^ 31) mod 2 ^ 32 - 2 ^ 31.
Definition argument (f : frame) (i : nat) : Z := nth i (f_args f) 0.

(** What a C library makes of the value left in rax by a system call on
    x86-64 Linux: -4095..-1 are errors. *)
Definition libc_view (rax : Z) : Z * option Z :=
  let v := if rax <? 2 ^ 63 then rax else rax - 2 ^ 64 in
  if (-4095 <=? v) && (v <? 0) then (-1, Some (- v)) else (v, None).

(** What a caller should observe of a host operation that returned [r] with
    errno [e]. *)
Definition observed (r e : Z) : Z * option Z := if 0 <=? r then (r, None) else (-1, Some e).

(** The child is ready to make a callback: its objects are in order, [sp] is
    room on its stack, malloc works. *)
Definition child_ready (shm size hdr : Z) (alloc : list (Z * Z) -> Z -> Z) (maxn : Z) (st : cst) (sp : Z) : Prop :=
  mapping_ok shm size hdr /\ tidy shm size hdr (cs_blocks st) /\
  malloc_serves 8 shm size hdr alloc (cs_blocks st) maxn /\ In (sp, 32) (cs_blocks st) /\ 32 <= maxn.

(** [p] is one of the program's objects, of [n] bytes, and not the stack slot. *)
Definition program_block (st : cst) (maxn sp p n : Z) : Prop :=
  In (p, n) (cs_blocks st) /\ n <= maxn /\ p <> sp.

(** [p] is a C string of the program. *)
Definition program_string (st : cst) (maxn : Z) (fuel : nat) (sp p : Z) (s : text) : Prop :=
  cstring_at (cs_mem st) p s /\ program_block st maxn sp p (Z.of_nat (S (List.length s))) /\
  (List.length s < fuel)%nat.

(** Of two equal memories no reader can tell the difference on [n] bytes. *)
Definition same_bytes (m : Z -> ascii) (p : Z) (m' : Z -> ascii) (p' n : Z) : Prop :=
  forall i, 0 <= i < n -> m (p + i) = m' (p' + i).

(** ** What counts as the name of one of the process's own descriptors *)

Definition char_in (codes : list nat) (c : ascii) : Prop := In (nat_of_ascii c) codes.
(** sscanf's %d finds a number: white space (space, \t \n \v \f \r), perhaps a
    sign, and a digit. *)
Definition reads_number (t : text) : Prop :=
  exists ws sg d r, t = ws ++ sg ++ d :: r /\
    Forall (char_in [32; 9; 10; 11; 12; 13]%nat) ws /\
    (sg = [] \/ exists c, sg = [c] /\ char_in [43; 45]%nat c) /\
    char_in [48; 49; 50; 51; 52; 53; 54; 55; 56; 57]%nat d.
Definition own_name (proc s : text) : Prop := exists t, s = proc ++ t /\ reads_number t.

(** ** What the exported tree makes of a path *)

(** The names a path leads to, "" ignored and each ".." taking one back. *)
Definition plain_names (segs : list text) : list text := rev (follow (fun n c => c :: n) (@tl text) [] segs).
(** EINVAL (22) when ".." climbs above the start, ENOENT (2) when nothing is
    exported there, otherwise the exported file, or the exported directory and the
    rest of the names. *)
Inductive resolves (ex : exports) (s : text) : Z + Z * list text -> Prop :=
| R_climbs segs : segments_of s segs -> climbs_above_start segs -> resolves ex s (inl 22)
| R_absent segs : segments_of s segs -> ~ climbs_above_start segs -> not_exported ex (plain_names segs) ->
    resolves ex s (inl 2)
| R_file segs fd : segments_of s segs -> ~ climbs_above_start segs -> exported_file ex (plain_names segs) fd ->
    resolves ex s (inr (fd, []))
| R_below segs q tail fd : segments_of s segs -> ~ climbs_above_start segs ->
    plain_names segs = q ++ tail -> tail <> [] -> exported_dir ex q fd ->
    resolves ex s (inr (fd, tail)).
Definition none_left (tail : list text) : bool := match tail with [] => true | _ => false end.

(** The kernel's answers are those of Linux: -1 with a small positive errno, or
    a non-negative int. *)
Definition linux_kernel (k : kernel) : Prop :=
  forall log op, let '(r, e) := k log op in (r = -1 /\ 0 < e <= 4095) \/ 0 <= r < 2 ^ 31.

(** Open something with O_PATH beneath [fd], then do [op] to it. *)
Definition on_path (k : kernel) (fd : Z) (p : option text) (op : Z -> kop) : Z * Z :=
  let o := KOpenat2 fd p 2097152 0 8 in
  if fst (k [] o) <? 0 then (-1, snd (k [] o)) else k [o] (op (fst (k [] o))).
