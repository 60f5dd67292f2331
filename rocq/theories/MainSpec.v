(** Vocabulary for the properties of the sandbox process's start-up. *)
From Coq Require Import List ZArith Bool Ascii.
From Coq Require Import String.
From Coq Require Import List.
From Verif Require Import Base SeccompModel FdModel MainModel.
Import ListNotations.
Open Scope Z_scope.

(** [t] is the decimal notation of [n]. *)
Definition digit (d : Z) : ascii := ascii_of_nat (48 + Z.to_nat d).
Inductive decimal : Z -> text -> Prop :=
| dec_one d : 0 <= d < 10 -> decimal d [digit d]
| dec_more n t d : 0 < n -> 0 <= d < 10 -> decimal n t -> decimal (10 * n + d) (t ++ [digit d]).

(** [s] is the name Linux gives descriptor [fd] of process [pid]. *)
Definition names_descriptor (pid fd : Z) (s : text) : Prop :=
  exists p f, decimal pid p /\ decimal fd f /\ s = tx "/proc/" ++ p ++ tx "/fd/" ++ f.

(** [r] does not begin with a decimal digit. *)
Definition no_more_digits (r : text) : Prop :=
  forall c d, hd_error r = Some c -> 0 <= d < 10 -> c <> digit d.

(** An int that is not negative. *)
Definition int_range (n : Z) : Prop := 0 <= n < 2 ^ 31.

(** Everything start-up needs goes well: the filter is loaded with all its
    rules, the heap is where it should be, there is memory for a short string
    and one free descriptor number, and the library in file [f] loads, exports
    both functions, and its start-up code returns. *)
Definition smooth (w : world) (t : table) (f : Z) : Prop :=
  w_debug_sandbox w = false /\
  w_init_ok w = true /\ (forall i, w_add_ok w i = true) /\ w_load_ok w = true /\
  int_range (w_self w) /\ w_heap_ok w = true /\ w_memory w = true /\ w_openat w = true /\
  (lowest (close 4 (close 3 t)) < w_limit w)%nat /\
  w_image w f = Some (Image true true true true true).

(** The descriptors of [t] without numbers 3 (the heap) and 4 (the pagemap). *)
Definition without_heap (t t' : table) : Prop :=
  forall n, get t' n = if (n =? 3) || (n =? 4) then None else get t n.
