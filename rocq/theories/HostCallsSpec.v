(** Vocabulary for stating the properties of the built-in host callbacks.
    Independent of the handlers. *)
From Coq Require Import String Ascii List ZArith Bool.
From Verif Require Import Base PathModel PathSpec FileTreeModel FileTreeSpec RegionSpec DispatchModel HostCallsModel.
Import ListNotations.
Open Scope Z_scope.

(** The descriptor [fd] is what is exported at the name [q], after the exports [ex]
    (each with whether it was accepted; see FileTreeSpec). *)
Definition exports := list (list text * leaf * bool).
Definition exported_file (ex : exports) (q : list text) (fd : Z) : Prop := exists v, history ex v /\ v q = AFile fd.
Definition exported_dir (ex : exports) (q : list text) (fd : Z) : Prop := exists v, history ex v /\ v q = ADir fd.
(** There is neither a file at [names] nor a directory above it. *)
Definition not_exported (ex : exports) (names : list text) : Prop :=
  exists v, history ex v /\ (forall fd, v names <> AFile fd) /\
  forall q tail fd, names = q ++ tail -> tail <> [] -> v q <> ADir fd.

(** A path the kernel resolves strictly below the directory it is given:
    relative, made of the non-empty, '..'-free names [tail], no NUL. *)
Definition beneath_path (p : text) (tail : list text) : Prop :=
  tail <> [] /\ segments_of p tail /\ clean tail /\ ~ In nul p.

(** The string read at [in_path] names [names], "" and ".." resolved by a stack of
    names; in it no ".." leads above the start. *)
Definition request_names (lo hi : Z) (rd : nat -> Z -> ascii) (in_path : Z) (names : list text) : Prop :=
  exists s segs, cstring_read lo hi rd in_path s /\ segments_of s segs /\ ~ climbs_above_start segs /\
    names = rev (follow (fun n c => c :: n) (@tl text) [] segs).
(** There is no such string, or it climbs above its start. *)
Definition request_names_nothing (lo hi : Z) (rd : nat -> Z -> ascii) (in_path : Z) : Prop :=
  no_cstring lo hi rd in_path \/
  exists s segs, cstring_read lo hi rd in_path s /\ segments_of s segs /\ climbs_above_start segs.

(** The reply for a system call that gave [r], its value and errno: a new descriptor
    is sent along (the integer is then -38, which nobody uses); a number is sent as
    it is; a failure as the negated errno. *)
Definition answers_fd (r : Z * Z) (res : result) : Prop :=
  0 <= fst r /\ res = Result (-38) (Some (fst r)) \/ fst r < 0 /\ res = Result (- snd r) None.
Definition answers_int (r : Z * Z) (res : result) : Prop :=
  0 <= fst r /\ res = Result (fst r) None \/ fst r < 0 /\ res = Result (- snd r) None.

(** A request that is answered without touching the file system, with EINVAL (22)
    or ENOENT (2), and when. *)
Definition refused (lo hi : Z) (ex : exports) (rd : nat -> Z -> ascii) (in_path : Z) (res : result) (ops : list kop) : Prop :=
  ops = [] /\
  (res = Result (-22) None /\ request_names_nothing lo hi rd in_path \/
   res = Result (-2) None /\ exists names, request_names lo hi rd in_path names /\ not_exported ex names).

(** The caller's view of a system call's outcome: value, and errno if it was set. *)
Definition observed := (Z * option Z)%type.

(** Reading back an address list from the memory the stores leave behind.
    Stores that overlap an object other than as a whole or as one of its fields
    destroy it. *)
Definition overlaps (a n b m : Z) : bool := (a <? b + m) && (b <? a + n).

Definition with_addr (c : ai_cell) (p : Z) : ai_cell :=
  AICell (c_flags c) (c_family c) (c_socktype c) (c_protocol c) (c_addrlen c) p (c_canonname c) (c_next c).
Definition with_next (c : ai_cell) (p : Z) : ai_cell :=
  AICell (c_flags c) (c_family c) (c_socktype c) (c_protocol c) (c_addrlen c) (c_addr c) (c_canonname c) p.

Definition cell_step (x : Z) (acc : option ai_cell) (s : store) : option ai_cell :=
  match s with
  | SCell a c => if a =? x then Some c else if overlaps a 48 x 48 then None else acc
  | SAddr a p => if a =? x then option_map (fun c => with_addr c p) acc
                 else if overlaps (a + 24) 8 x 48 then None else acc
  | SNext a p => if a =? x then option_map (fun c => with_next c p) acc
                 else if overlaps (a + 40) 8 x 48 then None else acc
  | SByte a _ => if overlaps a 1 x 48 then None else acc
  | SPtr a _ => if overlaps a 8 x 48 then None else acc
  end.

Definition byte_step (x : Z) (acc : option ascii) (s : store) : option ascii :=
  match s with
  | SCell a _ => if overlaps a 48 x 1 then None else acc
  | SAddr a _ => if overlaps (a + 24) 8 x 1 then None else acc
  | SNext a _ => if overlaps (a + 40) 8 x 1 then None else acc
  | SByte a b => if a =? x then Some b else acc
  | SPtr a _ => if overlaps a 8 x 1 then None else acc
  end.

Definition ptr_step (x : Z) (acc : option Z) (s : store) : option Z :=
  match s with
  | SCell a _ => if overlaps a 48 x 8 then None else acc
  | SAddr a _ => if overlaps (a + 24) 8 x 8 then None else acc
  | SNext a _ => if overlaps (a + 40) 8 x 8 then None else acc
  | SByte a _ => if overlaps a 1 x 8 then None else acc
  | SPtr a p => if a =? x then Some p else if overlaps a 8 x 8 then None else acc
  end.

Definition cell_at (ss : list store) (x : Z) : option ai_cell := fold_left (cell_step x) ss None.
Definition byte_at (ss : list store) (x : Z) : option ascii := fold_left (byte_step x) ss None.
Definition ptr_at (ss : list store) (x : Z) : option Z := fold_left (ptr_step x) ss None.

(** [n] bytes from [p]. *)
Definition bytes_at (ss : list store) (p : Z) (bs : list ascii) : Prop :=
  forall i b, nth_error bs i = Some b -> byte_at ss (p + Z.of_nat i) = Some b.

(** What a reader of an address list gets out of each element. *)
Record address := Address { a_flags : Z; a_family : Z; a_socktype : Z; a_protocol : Z; a_sockaddr : list ascii }.

Inductive list_at (ss : list store) : Z -> list address -> Prop :=
| LA_end : list_at ss 0 []
| LA_cons p c sa r :
    p <> 0 -> cell_at ss p = Some c ->
    c_addrlen c = Z.of_nat (List.length sa) -> bytes_at ss (c_addr c) sa ->
    list_at ss (c_next c) r ->
    list_at ss p (Address (c_flags c) (c_family c) (c_socktype c) (c_protocol c) sa :: r).

Definition address_of (a : addrinfo) : address :=
  Address (ai_flags a) (ai_family a) (ai_socktype a) (ai_protocol a) (ai_sockaddr a).

(** The bytes a store touches. *)
Definition extent (s : store) : Z * Z :=
  match s with
  | SCell a _ => (a, 48) | SAddr a _ => (a + 24, 8) | SNext a _ => (a + 40, 8)
  | SByte a _ => (a, 1) | SPtr a _ => (a, 8)
  end.
