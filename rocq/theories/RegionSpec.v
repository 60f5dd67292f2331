(** Vocabulary for stating the memory-bounds properties.  Independent of the
    model's helpers. *)
From Coq Require Import String Ascii List ZArith Bool.
From Verif Require Import Base.
Open Scope Z_scope.

(** Every byte of the block of [n] bytes at address [p] lies in [lo, hi). *)
Definition block_within (lo hi p n : Z) : Prop :=
  forall x, p <= x < p + n -> lo <= x < hi.

(** A mapping of [size] bytes at [shm], starting with a header of [hdr] bytes,
    that fits in the user half of the address space. *)
Definition mapping_ok (shm size hdr : Z) : Prop :=
  0 < shm /\ 0 < hdr /\ 2 * hdr <= size /\ shm + size < W.

(** Memory [m] holds the NUL-terminated string [s] at address [p]. *)
Definition cstring_at (m : Z -> ascii) (p : Z) (s : list ascii) : Prop :=
  (forall i c, nth_error s i = Some c -> m (p + Z.of_nat i) = c /\ c <> nul)
  /\ m (p + Z.of_nat (length s)) = nul.

(** The same when the memory changes meanwhile, [rd t] being the memory when the
    t-th byte is loaded: [s] at [p], inside [lo, hi), each byte as it was at some
    time. *)
Definition cstring_read (lo hi : Z) (rd : nat -> Z -> ascii) (p : Z) (s : list ascii) : Prop :=
  lo <= p /\ p + Z.of_nat (length s) < hi /\
  (forall i c, nth_error s i = Some c -> c <> nul /\ exists t, rd t (p + Z.of_nat i) = c) /\
  exists t, rd t (p + Z.of_nat (length s)) = nul.
(** No string can be read: [p] is not in [lo, hi), or no byte from there to the
    end is NUL when it is looked at. *)
Definition no_cstring (lo hi : Z) (rd : nat -> Z -> ascii) (p : Z) : Prop :=
  p < lo \/ hi <= p \/ forall x, p <= x < hi -> exists t, rd t x <> nul.
Definition string_or_null (lo hi : Z) (rd : nat -> Z -> ascii) (p : Z) (o : option (list ascii)) : Prop :=
  match o with Some s => cstring_read lo hi rd p s | None => no_cstring lo hi rd p end.

(** The C string a reader of a buffer sees: the bytes before the first NUL;
    None if the buffer is not NUL-terminated. *)
Fixpoint c_view (buf : list ascii) : option (list ascii) :=
  match buf with
  | nil => None
  | cons c r =>
    if ascii_dec c nul then Some nil
    else match c_view r with Some s => Some (cons c s) | None => None end
  end.

(** The byte at address [x] after performing the stores in order. *)
Fixpoint last_store (stores : list (Z * ascii)) (x : Z) : option ascii :=
  match stores with
  | nil => None
  | cons (a, b) r =>
    match last_store r x with
    | Some c => Some c
    | None => if a =? x then Some b else None
    end
  end.
