(** Model of what the constructors of CallbackDispatcher and Library decide
    before the sandbox runs (src/libsandbox.cc 46-51, 700-720, 891-920): the
    default exports and the names of the files to run.  No proofs in this file. *)
From Coq Require Import String Ascii List ZArith Bool.
From Verif Require Import Base PathModel FileTreeModel.
Import ListNotations.
Open Scope Z_scope.

(** 50: libdirs, and 713: the loader's cache. *)
Definition libdirs : list text := [tx "/lib"; tx "/usr/lib"; tx "/usr/local/lib"].
Definition ldsocache : text := tx "/etc/ld.so.cache".

(** 705-718.  [opens] is what open(2) answers for a path: a descriptor, or -1.
    The test is [fd > 0].  The result is the tree and the descriptors that no
    object owns. *)
Definition export_default (opens : text -> Z) (d : dir) (p : text) (leaf : Z -> leaf) : outcome (dir * list Z) :=
  let fd := opens p in
  if 0 <? fd then obind (add_call d (p, leaf fd)) (fun r => Ret (snd r, []))
  else Ret (d, if fd =? -1 then [] else [fd]).
Fixpoint export_dirs (opens : text -> Z) (d : dir) (ps : list text) : outcome (dir * list Z) :=
  match ps with
  | [] => Ret (d, [])
  | p :: r => obind (export_default opens d p LeafDir) (fun x =>
              obind (export_dirs opens (fst x) r) (fun y => Ret (fst y, snd x ++ snd y)))
  end.
Definition dispatcher_tree (opens : text -> Z) : outcome (dir * list Z) :=
  obind (export_dirs opens [] libdirs) (fun x =>
  obind (export_default opens (fst x) ldsocache LeafFile) (fun y => Ret (fst y, snd x ++ snd y))).

(** dirname(3) as in POSIX: trailing slashes do not count; "." without a slash;
    slashes before the last name are dropped, except for the root. *)
Fixpoint strip (t : text) : text :=                (* on the reversed path *)
  match t with c :: r => if ascii_dec c slash then strip r else t | [] => [] end.
Fixpoint drop_name (t : text) : text :=
  match t with c :: r => if ascii_dec c slash then t else drop_name r | [] => [] end.
Definition dirname (p : text) : text :=
  let r := strip (rev p) in
  match r with
  | [] => match p with [] => tx "." | _ => tx "/" end
  | _ => match drop_name r with
         | [] => tx "."
         | d => match strip d with [] => tx "/" | s => rev s end
         end
  end.

(** 891-920: [here] is the file name dladdr gives for libsandbox itself, [None]
    if it fails.  The result is the library and the runner that will be opened. *)
Definition resolve (here : option text) (library_name : text) : text * text :=
  let path := match here with Some f => dirname f | None => tx "." end in
  let lib := match library_name with
             | c :: _ => if ascii_dec c slash then library_name else path ++ slash :: library_name
             | [] => path ++ [slash]
             end in
  (lib, path ++ tx "/library_runner").
