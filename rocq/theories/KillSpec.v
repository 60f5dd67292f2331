(** Vocabulary for what a forbidden system call does. *)
From Coq Require Import List ZArith.
From Verif Require Import KillModel.
Import ListNotations.
Open Scope Z_scope.

(** The thread that acts, if it is one of the sandbox's. *)
Definition actor (a : act) : option Z :=
  match a with Host _ => None | Sys t _ _ => Some t | Touch t _ _ _ => Some t | Fault t => Some t end.

(** The number the kernel gives to a thread that is started, if one is. *)
Definition numbers_new (a : act) : option Z := match a with Sys _ _ child => Some child | _ => None end.

(** The sandbox leaves the shared header and the socket alone and does not fault. *)
Definition silent (a : act) : Prop :=
  match a with Touch _ _ _ _ | Fault _ => False | _ => True end.
