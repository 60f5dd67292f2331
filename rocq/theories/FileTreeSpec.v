(** Independent specification of the exported file tree: a partial view of a
    name space, updated by exports. *)
From Coq Require Import String Ascii List ZArith Bool.
From Verif Require Import Base PathSpec FileTreeModel.
Import ListNotations.

(** What is visible at a path (a list of names from the root). *)
Inductive node : Type :=
| Absent
| Virtual                (* an unopenable directory that only groups exports *)
| AFile (fd : Z)
| ADir (fd : Z).

Definition node_of_leaf (l : leaf) : node :=
  match l with LeafFile fd => AFile fd | LeafDir fd => ADir fd end.

Definition view := list text -> node.

(** Nothing exported: only the root exists. *)
Definition empty_view : view := fun p => match p with [] => Virtual | _ => Absent end.

Definition names_eq_dec : forall a b : list text, {a = b} + {a <> b} :=
  list_eq_dec text_eq_dec.

Fixpoint is_prefix (p q : list text) : bool :=
  match p, q with
  | [], _ => true
  | a :: p', b :: q' => if text_eq_dec a b then is_prefix p' q' else false
  | _, _ => false
  end.

Definition strict_prefix (p q : list text) : bool :=
  is_prefix p q && negb (Nat.eqb (length p) (length q)).

(** Export of [q] is refused when [q] lies below an exported directory. *)
Definition below_exported_dir (v : view) (q : list text) : Prop :=
  exists r fd, strict_prefix r q = true /\ v r = ADir fd.

(** The effect of an accepted export at [q]: [q] becomes the export, its
    ancestors become (or stay) grouping directories, whatever was below [q] is
    gone, everything else is as before. *)
Definition exported (v : view) (q : list text) (n : node) : view :=
  fun p => if names_eq_dec p q then n
           else if strict_prefix p q then Virtual
           else if strict_prefix q p then Absent
           else v p.

(** A history of exports [(path, what, accepted)], oldest first, and the view
    it leads to. *)
Inductive history : list (list text * leaf * bool) -> view -> Prop :=
| H_empty : history [] empty_view
| H_accept h v q l :
    history h v -> ~ below_exported_dir v q ->
    history (h ++ [(q, l, true)]) (exported v q (node_of_leaf l))
| H_refuse h v q l :
    history h v -> below_exported_dir v q ->
    history (h ++ [(q, l, false)]) v.

(** The raw text of the absolute path with the given names. *)
Definition raw_path (q : list text) : text := slash :: joined q.

(** Texts a host may pass: absolute, at least one name, names free of '/'. *)
Definition good_names (q : list text) : Prop := q <> [] /\ Forall no_slash q.
