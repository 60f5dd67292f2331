(** Which fields of include/process_sandbox/shared_memory_region.h 17-89 are
    std::atomic, and the memory orders of the accesses that pass control between
    host and sandbox.  No proofs in this file. *)
From Coq Require Import ZArith Bool.
From Verif Require Import ProtoModel.
Open Scope Z_scope.

Inductive field :=
| FunctionIndex | MsgBuffer | ShouldExit | CallbackDepth | IsChildExecuting | IsChildLoaded | ChildSem | ParentSem.

(** shared_memory_region.h: should_exit (34), is_child_executing (70),
    is_child_loaded (76) and callback_depth (82) are std::atomic, and so is the
    flag of a semaphore (onebitsem_futex.h 25); function_index (39) and msg_buffer
    (44) are not. *)
Definition atomic (f : field) : bool :=
  match f with FunctionIndex | MsgBuffer => false | _ => true end.

Inductive order := Relaxed | Acquire | Release | AcqRel | SeqCst.
(** wake: fetch_add, onebitsem_futex.h 41 (onebitsem_umtx.h 45 likewise). *)
Definition wake_order : order := Release.
(** wait: compare_exchange_strong, onebitsem_futex.h 55-56 (onebitsem_umtx.h 66-67
    likewise). *)
Definition take_order : order := Acquire.
(** is_child_loaded = true, src/library_runner.cc 1116: the default. *)
Definition loaded_store : order := SeqCst.
(** while (!is_child_loaded), src/libsandbox.cc 940: the default. *)
Definition loaded_load : order := SeqCst.

(** The header with one field set; a flag is false for 0. *)
Definition put_field (f : field) (v : Z) (s : shared) : shared :=
  match f with
  | FunctionIndex => set_findex v s
  | MsgBuffer => set_mbuf v s
  | ShouldExit => set_should_exit (negb (v =? 0)) s
  | CallbackDepth => set_depth v s
  | IsChildExecuting => set_executing (negb (v =? 0)) s
  | IsChildLoaded => set_loaded (negb (v =? 0)) s
  | ChildSem => set_cflag v s
  | ParentSem => set_pflag v s
  end.
