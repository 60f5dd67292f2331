(** Model of the change of stacks before the sandbox's run loop starts:
    runloop_with_stack_pivot (src/library_runner.cc 1006-1047) and the end of main
    (1118-1124).  No proofs in this file. *)
From Coq Require Import List ZArith Bool.
Import ListNotations.
Open Scope Z_scope.

(** The registers the x86-64 code uses. *)
Inductive reg := RSP | RBX | RDI | RAX.
(** The instructions it is made of (1011-1020).  Every instruction takes one unit
    of the address space here; their true lengths play no part. *)
Inductive instr := Mov (src dst : reg) | Push (r : reg) | Pop (r : reg) | Xor (src dst : reg) | Call (target : Z) | Ret.

(** Memory is a function from the addresses of 8-byte words, which the code uses
    aligned; [wrote] lists the addresses written so far. *)
Record cpu := Cpu { regs : reg -> Z; rip : Z; mem : Z -> Z; wrote : list Z }.

Definition reg_eqb (a b : reg) : bool :=
  match a, b with RSP, RSP | RBX, RBX | RDI, RDI | RAX, RAX => true | _, _ => false end.
Definition setr (f : reg -> Z) (r : reg) (v : Z) : reg -> Z := fun x => if reg_eqb x r then v else f x.
Definition setm (f : Z -> Z) (a v : Z) : Z -> Z := fun x => if x =? a then v else f x.
(** Addresses are 64 bits. *)
Definition w64 (x : Z) : Z := x mod 2 ^ 64.

(** One instruction; [None] is a fault.  [mapped]: the addresses that may be
    used.  push and call decrement the stack pointer and then store; pop loads,
    increments and then sets the register, so that pop rsp takes the loaded
    value (Intel SDM, POP). *)
Definition exec (mapped : Z -> bool) (i : instr) (c : cpu) : option cpu :=
  let sp := regs c RSP in
  match i with
  | Mov s d => Some (Cpu (setr (regs c) d (regs c s)) (rip c + 1) (mem c) (wrote c))
  | Xor s d => Some (Cpu (setr (regs c) d (Z.lxor (regs c d) (regs c s))) (rip c + 1) (mem c) (wrote c))
  | Push r =>
    let a := w64 (sp - 8) in
    if mapped a then Some (Cpu (setr (regs c) RSP a) (rip c + 1) (setm (mem c) a (regs c r)) (wrote c ++ [a])) else None
  | Pop r =>
    if mapped sp then Some (Cpu (setr (setr (regs c) RSP (w64 (sp + 8))) r (mem c sp)) (rip c + 1) (mem c) (wrote c)) else None
  | Call t =>
    let a := w64 (sp - 8) in
    if mapped a then Some (Cpu (setr (regs c) RSP a) t (setm (mem c) a (rip c + 1)) (wrote c ++ [a])) else None
  | Ret =>
    if mapped sp then Some (Cpu (setr (regs c) RSP (w64 (sp + 8))) (mem c sp) (mem c) (wrote c)) else None
  end.

(** runloop_with_stack_pivot, 1012-1020; [runloop] is the address called. *)
Definition pivot_code (runloop : Z) : list instr :=
  [ Mov RSP RBX;      (* 1012 *)
    Mov RDI RSP;      (* 1013 *)
    Push RBX;         (* 1014 *)
    Push RBX;         (* 1015 *)
    Xor RDI RDI;      (* 1016 *)
    Call runloop;     (* 1017 *)
    Pop RAX;          (* 1018 *)
    Pop RSP;          (* 1019 *)
    Ret ].            (* 1020 *)

(** The code is at [base]; [loop] is what the run loop does from its first
    instruction to its return ([None] if it never returns), the code it runs
    being arbitrary. *)
Section RUN.
Variable mapped : Z -> bool.
Variables base runloop : Z.
Variable loop : cpu -> option cpu.

Definition pstep (c : cpu) : option cpu :=
  if rip c =? runloop then loop c
  else if (base <=? rip c) then
    match nth_error (pivot_code runloop) (Z.to_nat (rip c - base)) with
    | Some i => exec mapped i c
    | None => None
    end
  else None.
Fixpoint psteps (n : nat) (c : cpu) : option cpu :=
  match n with
  | O => Some c
  | S n => match pstep c with Some c' => psteps n c' | None => None end
  end.
End RUN.

(** main, 1118-1124: the new stack is a block of this size from malloc, whose
    result is not checked; its address is the first argument (rdi). *)
Definition stack_size : Z := 8 * 1024 * 1024.

(** The portable version, 1028-1046: pthread_attr_setstack makes the block the
    new thread's stack, which grows down from its end; the thread library keeps
    [over] bytes there for itself. *)
Definition thread_sp (stack size over : Z) : Z := stack + size - over.
