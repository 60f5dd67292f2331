(** The claimed theorems about the run loop's stack (C64). *)
From Coq Require Import List ZArith Bool Lia.
From Verif Require Import PivotModel PivotSpec.
Import ListNotations.
Open Scope Z_scope.

Section PIVOT.
Variable mapped : Z -> bool.
Variables base runloop : Z.
Variable loop : cpu -> option cpu.
(** The code is somewhere else than the run loop, at a valid address. *)
Definition placed := 0 <= base /\ (runloop < base \/ base + 9 <= runloop).

Lemma pstep_at c k i : placed -> rip c = base + Z.of_nat k -> nth_error (pivot_code runloop) k = Some i ->
  pstep mapped base runloop loop c = exec mapped i c.
Proof.
  intros [B P] R N. assert (K : (k < 9)%nat) by (apply (nth_error_Some (pivot_code runloop) k); rewrite N; discriminate).
  unfold pstep. destruct (Z.eqb_spec (rip c) runloop); [lia|]. destruct (Z.leb_spec base (rip c)); [|lia].
  replace (Z.to_nat (rip c - base)) with k by lia. rewrite N. reflexivity.
Qed.

Lemma w64_id x : 0 <= x < 2 ^ 64 -> w64 x = x.
Proof. apply Z.mod_small. Qed.

Lemma six c stack : placed -> rip c = base -> regs c RDI = stack -> 24 <= stack < 2 ^ 64 ->
  mapped (stack - 8) = true -> mapped (stack - 16) = true -> mapped (stack - 24) = true ->
  exists c', psteps mapped base runloop loop 6 c = Some c' /\ rip c' = runloop /\
    regs c' RSP = stack - 24 /\ regs c' RBX = regs c RSP /\ regs c' RDI = 0 /\
    mem c' (stack - 8) = regs c RSP /\ mem c' (stack - 16) = regs c RSP /\ mem c' (stack - 24) = base + 6 /\
    (forall a, a <> stack - 8 -> a <> stack - 16 -> a <> stack - 24 -> mem c' a = mem c a) /\
    wrote c' = wrote c ++ [stack - 8; stack - 16; stack - 24].
Proof.
  intros P R D S M1 M2 M3. 
  assert (W1 : w64 (stack - 8) = stack - 8) by (apply w64_id; lia).
  assert (W2 : w64 (stack - 8 - 8) = stack - 16) by (rewrite w64_id; lia).
  assert (W3 : w64 (stack - 16 - 8) = stack - 24) by (rewrite w64_id; lia).
  cbn [psteps].
  rewrite (pstep_at _ 0 (Mov RSP RBX) P) by (try lia; reflexivity). cbn [exec].
  rewrite (pstep_at _ 1 (Mov RDI RSP) P) by (cbn [rip]; try lia; reflexivity). cbn [exec regs rip mem wrote setr reg_eqb]. 
  rewrite (pstep_at _ 2 (Push RBX) P) by (cbn [rip]; try lia; reflexivity). cbn [exec regs rip mem wrote setr reg_eqb].
  unfold setr at 1. cbn [reg_eqb]. unfold setr at 1. cbn [reg_eqb]. rewrite D, W1, M1.
  rewrite (pstep_at _ 3 (Push RBX) P) by (cbn [rip]; try lia; reflexivity). cbn [exec regs rip mem wrote].
  unfold setr at 1. cbn [reg_eqb]. rewrite W2, M2.
  rewrite (pstep_at _ 4 (Xor RDI RDI) P) by (cbn [rip]; try lia; reflexivity). cbn [exec regs rip mem wrote].
  rewrite (pstep_at _ 5 (Call runloop) P) by (cbn [rip]; try lia; reflexivity). cbn [exec regs rip mem wrote].
  unfold setr at 1. cbn [reg_eqb]. unfold setr at 1. cbn [reg_eqb]. rewrite W3, M3.
  eexists. split; [reflexivity|]. cbn [regs rip mem wrote].
  unfold setr, setm. cbn [reg_eqb]. rewrite ?W3.
  repeat split.
  - apply Z.lxor_nilpotent.
  - rewrite !(proj2 (Z.eqb_neq _ _)) by lia. rewrite Z.eqb_refl. reflexivity.
  - rewrite !(proj2 (Z.eqb_neq (stack - 16) (stack - 24))) by lia. rewrite Z.eqb_refl. reflexivity.
  - rewrite Z.eqb_refl. lia.
  - intros a A1 A2 A3. rewrite !(proj2 (Z.eqb_neq _ _)) by lia. reflexivity.
  - rewrite <- !app_assoc. reflexivity.
Qed.

(** C64. Coming and going: the run loop is entered at depth 0 with the stack
    aligned as the calling convention asks, and once it returns, control is back
    at the caller with the caller's stack pointer. *)
Theorem pivot_enters_and_returns : forall c stack,
  placed -> rip c = base -> regs c RDI = stack -> 24 <= stack < 2 ^ 64 -> (stack mod 16 = 0) ->
  mapped (stack - 8) = true -> mapped (stack - 16) = true -> mapped (stack - 24) = true ->
  exists c1, psteps mapped base runloop loop 6 c = Some c1 /\ rip c1 = runloop /\ regs c1 RDI = 0 /\
    (regs c1 RSP + 8) mod 16 = 0 /\
    forall c2, loop c1 = Some c2 -> returns_by_abi c1 c2 ->
      0 <= regs c RSP < 2 ^ 64 - 8 -> mapped (regs c RSP) = true ->
      exists c3, psteps mapped base runloop loop 10 c = Some c3 /\
        rip c3 = mem c2 (regs c RSP) /\ regs c3 RSP = regs c RSP + 8 /\ mem c3 = mem c2.
Proof.
  intros c stack P R D S A M1 M2 M3.
  destruct (six c stack P R D S M1 M2 M3) as (c1 & E & R1 & S1 & B1 & D1 & X1 & X2 & X3 & _ & _).
  exists c1. split; [exact E|]. split; [exact R1|]. split; [exact D1|]. split.
  { rewrite S1. replace (stack - 24 + 8) with (stack + (-1) * 16) by lia. rewrite Z_mod_plus_full. exact A. }
  intros c2 L (Q1 & Q2 & Q3 & Q4 & Q5) RS MS. rewrite S1 in *.
  assert (E7 : psteps mapped base runloop loop 7 c = Some c2).
  { replace 7%nat with (6 + 1)%nat by reflexivity.
    assert (G : forall n m c, psteps mapped base runloop loop (n + m) c = match psteps mapped base runloop loop n c with Some c' => psteps mapped base runloop loop m c' | None => None end).
    { clear. induction n as [|n IH]; intros m c; [reflexivity|]. cbn [plus psteps]. destruct (pstep _ _ _ _ c); auto. }
    rewrite G, E. cbn [psteps]. unfold pstep. rewrite R1, Z.eqb_refl, L. reflexivity. }
  assert (G : forall n m c, psteps mapped base runloop loop (n + m) c = match psteps mapped base runloop loop n c with Some c' => psteps mapped base runloop loop m c' | None => None end).
  { clear. induction n as [|n IH]; intros m c; [reflexivity|]. cbn [plus psteps]. destruct (pstep _ _ _ _ c); auto. }
  change 10%nat with (7 + 3)%nat. rewrite G, E7. clear G. cbn [psteps].
  rewrite X3 in Q1. replace (stack - 24 + 8) with (stack - 16) in * by lia. replace (stack - 24 + 16) with (stack - 8) in * by lia.
  rewrite (pstep_at _ 6 (Pop RAX) P) by (try lia; reflexivity). cbn [exec]. rewrite Q2, M2.
  rewrite (pstep_at _ 7 (Pop RSP) P) by (cbn [rip]; try lia; reflexivity). cbn [exec regs rip mem wrote].
  unfold setr at 1 2. cbn [reg_eqb]. rewrite (w64_id (stack - 16 + 8)) by lia.
  replace (stack - 16 + 8) with (stack - 8) by lia. rewrite M1.
  rewrite (pstep_at _ 8 Ret P) by (cbn [rip]; try lia; reflexivity). cbn [exec regs rip mem wrote].
  unfold setr. cbn [reg_eqb].
  rewrite Q5, X1, MS. eexists. split; [reflexivity|].
  cbn [regs rip mem]. cbn [reg_eqb].
  split; [reflexivity|]. split; [|reflexivity]. apply w64_id. lia.
Qed.

(** C64 (limit). The stack given to the run loop is not the block set aside for it:
    the pivot's own writes and the frames of the run loop, however deep, are all
    below the block, in whatever lies before it. *)
Theorem pivot_never_uses_its_block : forall c stack,
  placed -> rip c = base -> regs c RDI = stack -> 24 <= stack < 2 ^ 64 ->
  mapped (stack - 8) = true -> mapped (stack - 16) = true -> mapped (stack - 24) = true ->
  exists c1, psteps mapped base runloop loop 6 c = Some c1 /\ rip c1 = runloop /\
    (exists w, wrote c1 = wrote c ++ w /\ forall a, In a w -> ~ inside stack stack_size a) /\
    (forall n a, frames (regs c1 RSP) n a -> ~ inside stack stack_size a) /\
    (forall a, inside stack stack_size a -> mem c1 a = mem c a).
Proof.
  intros c stack P R D S M1 M2 M3.
  destruct (six c stack P R D S M1 M2 M3) as (c1 & E & R1 & S1 & _ & _ & _ & _ & _ & F & W).
  exists c1. split; [exact E|]. split; [exact R1|]. unfold inside, frames. split; [|split].
  - eexists. split; [exact W|]. cbn. intros a I J. intuition lia.
  - intros n a X Y. lia.
  - intros a X. apply F; lia.
Qed.

(** C64 (limit). An object that ends where the block begins - nothing stops the
    allocator from placing one there - loses its last 24 bytes: they become twice
    the old stack pointer and a return address. *)
Theorem pivot_overwrites_neighbour : forall c stack,
  placed -> rip c = base -> regs c RDI = stack -> 24 <= stack < 2 ^ 64 ->
  mapped (stack - 8) = true -> mapped (stack - 16) = true -> mapped (stack - 24) = true ->
  exists c1, psteps mapped base runloop loop 6 c = Some c1 /\
    mem c1 (stack - 8) = regs c RSP /\ mem c1 (stack - 16) = regs c RSP /\ mem c1 (stack - 24) = base + 6.
Proof.
  intros c stack P R D S M1 M2 M3.
  destruct (six c stack P R D S M1 M2 M3) as (c1 & E & _ & _ & _ & _ & X1 & X2 & X3 & _). eauto 8.
Qed.

(** C64. If the allocation of the stack failed, the sandbox stops at the first
    push, before the run loop: the top of the address space is not mapped. *)
Theorem pivot_without_stack_faults : forall c,
  placed -> rip c = base -> regs c RDI = 0 -> mapped (2 ^ 64 - 8) = false ->
  psteps mapped base runloop loop 2 c <> None /\ forall n, (3 <= n)%nat -> psteps mapped base runloop loop n c = None.
Proof.
  intros c P R D M. split.
  - cbn [psteps]. rewrite (pstep_at _ 0 (Mov RSP RBX) P) by (try lia; reflexivity). cbn [exec].
    rewrite (pstep_at _ 1 (Mov RDI RSP) P) by (cbn [rip]; try lia; reflexivity). discriminate.
  - intros [|[|[|n]]] L; try lia. cbn [psteps].
    rewrite (pstep_at _ 0 (Mov RSP RBX) P) by (try lia; reflexivity). cbn [exec].
    rewrite (pstep_at _ 1 (Mov RDI RSP) P) by (cbn [rip]; try lia; reflexivity). cbn [exec].
    rewrite (pstep_at _ 2 (Push RBX) P) by (cbn [rip]; try lia; reflexivity). cbn [exec regs].
    unfold setr at 1. cbn [reg_eqb]. unfold setr at 1. cbn [reg_eqb]. rewrite D. change (w64 (0 - 8)) with (2 ^ 64 - 8). rewrite M. reflexivity.
Qed.

(** C64 (limit). The caller's rbx, which a function has to keep, is replaced by its
    stack pointer. *)
Theorem pivot_clobbers_rbx : forall c stack c2,
  placed -> rip c = base -> regs c RDI = stack -> 24 <= stack < 2 ^ 64 ->
  mapped (stack - 8) = true -> mapped (stack - 16) = true -> mapped (stack - 24) = true ->
  (forall c1, psteps mapped base runloop loop 6 c = Some c1 -> loop c1 = Some c2 /\ returns_by_abi c1 c2) ->
  mapped (regs c RSP) = true ->
  exists c3, psteps mapped base runloop loop 10 c = Some c3 /\ regs c3 RBX = regs c RSP.
Proof.
  intros c stack c2 P R D S M1 M2 M3 H MS.
  destruct (six c stack P R D S M1 M2 M3) as (c1 & E & R1 & S1 & B1 & D1 & X1 & X2 & X3 & _ & _).
  destruct (H c1 E) as (L & Q1 & Q2 & Q3 & Q4 & Q5). rewrite S1 in *.
  assert (G : forall n m c, psteps mapped base runloop loop (n + m) c = match psteps mapped base runloop loop n c with Some c' => psteps mapped base runloop loop m c' | None => None end).
  { clear. induction n as [|n IH]; intros m c; [reflexivity|]. cbn [plus psteps]. destruct (pstep _ _ _ _ c); auto. }
  change 10%nat with (6 + 4)%nat. rewrite G, E. cbn [psteps]. unfold pstep at 1. rewrite R1, Z.eqb_refl, L.
  rewrite X3 in Q1. replace (stack - 24 + 8) with (stack - 16) in * by lia. replace (stack - 24 + 16) with (stack - 8) in * by lia.
  rewrite (pstep_at _ 6 (Pop RAX) P) by (try lia; reflexivity). cbn [exec]. rewrite Q2, M2.
  rewrite (pstep_at _ 7 (Pop RSP) P) by (cbn [rip]; try lia; reflexivity). cbn [exec regs rip mem wrote].
  unfold setr at 1 2. cbn [reg_eqb]. rewrite (w64_id (stack - 16 + 8)) by lia.
  replace (stack - 16 + 8) with (stack - 8) by lia. rewrite M1.
  rewrite (pstep_at _ 8 Ret P) by (cbn [rip]; try lia; reflexivity). cbn [exec regs rip mem wrote].
  unfold setr. cbn [reg_eqb].
  rewrite Q5, X1, MS. eexists. split; [reflexivity|].
  cbn [regs]. cbn [reg_eqb]. rewrite Q3. exact B1.
Qed.
End PIVOT.

(** C64. On other machines the run loop's frames are in the block set aside for
    them, clear of the part at its end that the thread library keeps, until they
    need more than all of it. *)
Theorem portable_stack_in_block : forall stack over n a,
  0 <= over -> n <= 8388608 - over -> frames (thread_sp stack stack_size over) n a ->
  inside stack 8388608 a /\ ~ inside (stack + 8388608 - over) over a.
Proof. unfold frames, thread_sp, stack_size, inside. intros. lia. Qed.

(** A run: the block is at 2^32, the caller's stack at 2^47 - 8, code at 1000, the
    run loop at 5000; the run loop returns at once. *)
Definition ex_loop (c : cpu) : option cpu :=
  Some (Cpu (setr (regs c) RSP (regs c RSP + 8)) (mem c (regs c RSP)) (mem c) (wrote c)).
Definition ex_cpu : cpu :=
  Cpu (fun r => match r with RSP => 2 ^ 47 - 8 | RBX => 3 | RDI => 2 ^ 32 | RAX => 4 end) 1000
    (fun a => if a =? 2 ^ 47 - 8 then 777 else 0) [].
Example pivot_ex : placed 1000 5000 /\
  match psteps (fun a => a <? 2 ^ 47) 1000 5000 ex_loop 6 ex_cpu with
  | Some c1 => returns_by_abi c1 (match ex_loop c1 with Some c => c | None => c1 end)
  | None => False
  end /\
  match psteps (fun a => a <? 2 ^ 47) 1000 5000 ex_loop 10 ex_cpu with
  | Some c3 => rip c3 = 777 /\ regs c3 RSP = 2 ^ 47 /\ regs c3 RBX = 2 ^ 47 - 8
  | None => False
  end.
Proof. split; [unfold placed; lia|]. vm_compute. repeat split. Qed.

Print Assumptions pivot_enters_and_returns.
Print Assumptions pivot_never_uses_its_block.
Print Assumptions pivot_overwrites_neighbour.
Print Assumptions pivot_without_stack_faults.
Print Assumptions pivot_clobbers_rbx.
Print Assumptions portable_stack_in_block.
