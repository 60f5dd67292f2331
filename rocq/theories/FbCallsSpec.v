(** Vocabulary for trapped system calls on FreeBSD. *)
From Coq Require Import String Ascii List ZArith Bool.
From Verif Require Import Base PathModel DispatchModel HostCallsModel ChildCallsModel ChildCallsSpec FbCallsModel.
Import ListNotations.
Open Scope Z_scope.

(** The system call a program made, when the kernel reports its number: directly,
    or through syscall(2) or __syscall(2) (numbers 0 and 198), which take the number
    as first argument. *)
Inductive made_call (f : bframe) : Z -> list Z -> Prop :=
| Direct : b_sysno f <> 0 -> b_sysno f <> 198 -> made_call f (b_sysno f) (b_args f)
| Indirect n rest : b_sysno f = 0 \/ b_sysno f = 198 -> b_args f = n :: rest -> 0 <= n < 2 ^ 31 -> made_call f n rest.

(** What the program then sees: the carry flag (bit 0) marks an error, whose
    number is in rax. *)
Definition fb_view (f : bframe) : Z * option Z :=
  if Z.odd (b_flags f) then (-1, Some (b_rax f)) else (b_rax f, None).

(** Nothing but rax and the carry flag differs. *)
Definition only_result_differs (f g : bframe) : Prop :=
  b_code g = b_code f /\ b_sysno g = b_sysno f /\ b_args g = b_args f /\ b_rest g = b_rest f /\
  forall i, 0 < i -> Z.testbit (b_flags g) i = Z.testbit (b_flags f) i.

(** The libc functions behind the six emulated numbers, applied to registers.  An
    int is the low half of a register, a mode_t its low sixteen bits. *)
Definition served (lo hi : Z) (alloc : list (Z * Z) -> Z -> Z) (fuel : nat) (H : host) (sp : Z) (st : cst)
  (n : Z) (a : list Z) : option (outcome (cst * Z)) :=
  let r i := nth i a 0 in
  match n with
  | 5 => Some (callback_open lo hi alloc fuel H sp st (r 0%nat) (int_of (r 1%nat)) (r 2%nat mod 65536))
  | 33 => Some (callback_access lo hi alloc fuel H sp st (r 0%nat) (int_of (r 1%nat)))
  | 98 => Some (callback_bind_or_connect lo hi alloc fuel H 5 sp st (int_of (r 0%nat)) (r 1%nat) (r 2%nat mod 2 ^ 32))
  | 104 => Some (callback_bind_or_connect lo hi alloc fuel H 4 sp st (int_of (r 0%nat)) (r 1%nat) (r 2%nat mod 2 ^ 32))
  | 188 => Some (fb_callback_stat lo hi alloc fuel H sp st (r 0%nat) (r 1%nat))
  | 499 => Some (fb_callback_openat lo hi alloc fuel H sp st (int_of (r 0%nat)) (r 1%nat) (int_of (r 2%nat)) (r 3%nat mod 65536))
  | _ => None
  end.

(** Old programs' struct stat (freebsd11_stat), the argument of call 188. *)
Definition sizeof_freebsd11_stat : Z := 120.
