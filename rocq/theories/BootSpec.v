(** Vocabulary for C68. *)
From Coq Require Import String Ascii List ZArith Bool.
From Verif Require Import Base BootModel.
Import ListNotations.
Open Scope Z_scope.

(** The heap of [size] bytes that the host has at [addr] is in the child's memory
    at the same place: every address of it is the same byte of the heap, and can
    be written. *)
Definition heap_at (c : child) (addr size : Z) : Prop :=
  forall x, addr <= x < addr + size -> look (c_space c) x = Some (Heap, x - addr, true).

(** Nothing that was mapped before has changed. *)
Definition nothing_replaced (before : space) (c : child) : Prop :=
  forall x y, look before x = Some y -> look (c_space c) x = Some y.

(** No byte of the range is in use. *)
Definition free_range (sp : space) (a n : Z) : Prop :=
  forall x, a <= x < a + n -> look sp x = None.

(** An environment entry that sets the variable [v] (a name and an equals sign). *)
Definition sets (v entry : text) : Prop := exists value, entry = v ++ value.

(** Mappings are not empty. *)
Definition proper (sp : space) : Prop := Forall (fun m => 0 < m_len m) sp.
