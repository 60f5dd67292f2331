(** What the sandbox may do with each of its descriptors on FreeBSD. *)
From Coq Require Import List ZArith Bool.
From Verif Require Import FdModel CapModel.
Import ListNotations.
Open Scope Z_scope.

(** Uses of a descriptor, and the rights the kernel asks for (rights(4)). *)
Inductive use :=
| UseRead | UseWrite | UseReadAt | UseWriteAt | UseSeek | UseMapRead | UseMapWrite | UseMapExec
| UseTruncate | UseSync | UseStat | UseOpenBelow | UseCreateBelow | UseUnlinkBelow
| UseChangeMode | UseChdir | UseExecute | UseFcntl | UseBind | UseConnect.
Definition needs (u : use) : list right :=
  match u with
  | UseRead => [RRead] | UseWrite => [RWrite]
  | UseReadAt => [RRead; RSeek] | UseWriteAt => [RWrite; RSeek] | UseSeek => [RSeek]
  | UseMapRead => [RMmap; RSeek; RRead] | UseMapWrite => [RMmap; RSeek; RWrite] | UseMapExec => [RMmap; RSeek; RMmapX]
  | UseTruncate => [RFtruncate] | UseSync => [RFsync] | UseStat => [RFstat]
  | UseOpenBelow => [RLookup; RRead] | UseCreateBelow => [RLookup; RCreate] | UseUnlinkBelow => [RLookup; RUnlink]
  | UseChangeMode => [RFchmod] | UseChdir => [RFchdir] | UseExecute => [RFexecve]
  | UseFcntl => [RFcntl] | UseBind => [RBind] | UseConnect => [RConnect]
  end.
Definition permits (r : rights) (u : use) : Prop := forall x, In x (needs u) -> r x = true.

(** The documented permissions (sandbox_capsicum.h 72-97), descriptor 5 apart. *)
Definition documented (n : Z) : list use :=
  match n with
  | 0 => [UseRead]                                                     (* standard input *)
  | 1 | 2 => [UseWrite; UseSync]                                       (* output and error *)
  | 3 => [UseRead; UseWrite; UseReadAt; UseWriteAt; UseSeek; UseMapRead; UseMapWrite]  (* shared heap *)
  | 4 => [UseRead; UseReadAt; UseSeek; UseMapRead]                     (* pagemap *)
  | 6 => [UseRead; UseReadAt; UseSeek; UseStat; UseMapRead; UseMapExec]  (* the library *)
  | 7 => [UseRead; UseWrite]                                           (* memory requests *)
  | 8 | 9 | 10 => [UseRead; UseReadAt; UseSeek; UseStat; UseOpenBelow; UseMapRead; UseMapExec]  (* library directories *)
  | _ => []
  end.
(** Ways to change what a descriptor refers to. *)
Definition changes (u : use) : bool :=
  match u with UseWrite | UseWriteAt | UseMapWrite | UseTruncate | UseChangeMode => true | _ => false end.
