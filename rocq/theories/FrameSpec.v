(** Vocabulary for the memory accesses of calls. *)
From Coq Require Import List ZArith.
From Verif Require Import FrameModel.
Import ListNotations.
Open Scope Z_scope.

(** Bytes of a field of a frame. *)
Definition in_field (f : Z * nat) (x : Z) : Prop := fst f <= x < fst f + Z.of_nat (snd f).
(** A layout as a compiler makes it: every field inside the frame, no two
    overlapping. *)
Definition fields (L : layout) : list (Z * nat) := l_ret L :: l_args L.
Definition sensible (L : layout) : Prop :=
  (forall f x, In f (fields L) -> in_field f x -> 0 <= x < l_size L) /\
  ForallOrdPairs (fun f g => forall x, in_field f x -> ~ in_field g x) (fields L).
(** Argument values have the sizes of their fields. *)
Definition sized (L : layout) (args : list (list Z)) : Prop :=
  Forall2 (fun f bs => length bs = snd f) (l_args L) args.

Definition addr (x : access) : Z := match x with Wr a _ => a | Rd a _ => a end.
Definition writes (t : list access) : list access := filter (fun x => match x with Wr _ _ => true | _ => false end) t.
Definition reads (t : list access) : list access := filter (fun x => match x with Rd _ _ => true | _ => false end) t.
(** The addresses [a], [a + 1], ..., [a + n - 1]. *)
Definition span (a : Z) (n : nat) : list Z := map (fun k => a + Z.of_nat k) (seq 0 n).
