(** Vocabulary for the change of stacks: frames, blocks and the calling convention. *)
From Coq Require Import List ZArith.
From Verif Require Import PivotModel.
Open Scope Z_scope.

(** The addresses of frames of [n] bytes in all, below stack pointer [sp]. *)
Definition frames (sp n a : Z) : Prop := sp - n <= a < sp.
(** The bytes of a block. *)
Definition inside (start size a : Z) : Prop := start <= a < start + size.

(** What a compiled function does (System V ABI, 3.2): returns to the address on
    top of the stack with the stack pointer just above it; keeps rbx; leaves its
    caller's frame, here the two words above, as it was. *)
Definition returns_by_abi (c c' : cpu) : Prop :=
  rip c' = mem c (regs c RSP) /\ regs c' RSP = regs c RSP + 8 /\ regs c' RBX = regs c RBX /\
  mem c' (regs c RSP + 8) = mem c (regs c RSP + 8) /\ mem c' (regs c RSP + 16) = mem c (regs c RSP + 16).
