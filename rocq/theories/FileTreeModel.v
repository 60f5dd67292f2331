(** Model of include/process_sandbox/filetree.h (class ExportedFileTree).
    Handles are represented by their descriptor numbers.  A DirPtr is a
    shared_ptr that is stored in exactly one map (filetree.h 228-230), so the
    mutable tree is modelled by a pure tree that is rebuilt along the path. *)
From Coq Require Import String Ascii List ZArith Bool.
From Verif Require Import Base PathModel.
Import ListNotations.
Local Open Scope Z_scope.

(** filetree.h 104-106: the variant stored in a directory; the map itself is
    an association list keyed by file name. *)
Inductive entry : Type :=
| ETree (d : list (text * entry))   (* DirPtr *)
| EFile (fd : Z)                    (* FileHandle *)
| EDirH (fd : Z).                   (* DirHandle *)

Notation dir := (list (text * entry)).

(** unordered_map::find *)
Fixpoint dfind (d : dir) (name : text) : option entry :=
  match d with
  | [] => None
  | (n, e) :: d' => if text_eq_dec n name then Some e else dfind d' name
  end.

(** unordered_map::operator[] = ... *)
Fixpoint dset (d : dir) (name : text) (e : entry) : dir :=
  match d with
  | [] => [(name, e)]
  | (n, e0) :: d' =>
      if text_eq_dec n name then (n, e) :: d' else (n, e0) :: dset d' name e
  end.

(** filetree.h 112-113 *)
Inductive dir_lookup : Type :=
| LMonostate
| LHandle (fd : Z)
| LDirPtr (d : dir).

(** filetree.h 120-144 *)
Definition get_dir (d : dir) (name : text) : dir_lookup :=
  match dfind d name with
  | None => LMonostate
  | Some (EFile _) => LMonostate
  | Some (ETree sub) => LDirPtr sub
  | Some (EDirH fd) => LHandle fd
  end.

(** filetree.h 150-162 *)
Definition get_file (d : dir) (name : text) : option Z :=
  match dfind d name with
  | Some (EFile fd) => Some fd
  | _ => None
  end.

(** std::string::npos *)
Definition npos : Z := W - 1.
Definition zlen (t : text) : Z := Z.of_nat (length t).

(** std::string::find_first_of('/', pos) *)
Fixpoint find_slash_from (l : text) (i : Z) : Z :=
  match l with
  | [] => npos
  | c :: r => if ascii_dec c slash then i else find_slash_from r (i + 1)
  end.

Definition find_first_of (p : text) (pos : Z) : Z :=
  if pos <? zlen p then find_slash_from (skipn (Z.to_nat pos) p) pos else npos.

(** std::string::find_last_of('/') *)
Fixpoint find_last_from (l : text) (i : Z) (acc : Z) : Z :=
  match l with
  | [] => acc
  | c :: r => find_last_from r (i + 1) (if ascii_dec c slash then i else acc)
  end.

Definition find_last_of (p : text) : Z := find_last_from p 0 npos.

(** std::string::substr(pos, n): throws out_of_range when pos > size(). *)
Definition substr (p : text) (pos n : Z) : outcome text :=
  if zlen p <? pos then Throws
  else Ret (firstn (Z.to_nat (Z.min n (zlen p - pos))) (skipn (Z.to_nat pos) p)).

(** filetree.h 211-240: [add_handle].  The loop variable [dir] points into the
    tree; the model recurses into the sub-directory and rebuilds its parent on
    the way back.  [fuel] bounds the loop.  [leaf] is what the callable [add]
    stores (176-188, 303-316). *)
Fixpoint add_loop (fuel : nat) (p : text) (it fin : Z) (d : dir) (leaf : entry)
  : outcome (bool * dir) :=
  match fuel with
  | O => OutOfFuel
  | S fuel' =>
      if it <? fin then                                              (* 216 *)
        let next := find_first_of p (wrap (it + 1)) in               (* 218 *)
        obind (substr p (wrap (it + 1)) (wrap (next - it - 1)))      (* 219 *)
          (fun component =>
             match get_dir d component with                          (* 221 *)
             | LDirPtr sub =>                                        (* 222-225 *)
                 obind (add_loop fuel' p next fin sub leaf)
                   (fun r => Ret (fst r, dset d component (ETree (snd r))))
             | LMonostate =>                                         (* 226-231 *)
                 obind (add_loop fuel' p next fin [] leaf)
                   (fun r => Ret (fst r, dset d component (ETree (snd r))))
             | LHandle _ => Ret (false, d)                           (* 232-235 *)
             end)
      else
        obind (substr p (wrap (it + 1)) npos)                        (* 237 *)
          (fun component => Ret (true, dset d component leaf))       (* 238-239 *)
  end.

Definition add_handle (d : dir) (p : text) (leaf : entry) : outcome (bool * dir) :=
  add_loop (S (S (length p))) p 0 (find_last_of p) d leaf.           (* 213-215 *)

(** filetree.h 301-306 and 312-317 *)
Definition add_directory (d : dir) (p : text) (fd : Z) := add_handle d p (EDirH fd).
Definition add_file (d : dir) (p : text) (fd : Z) := add_handle d p (EFile fd).

(** filetree.h 265-281: the loop of [lookup_file] over all components but the
    last. *)
Inductive walk_result : Type :=
| WAt (d : dir) (cs : list text)       (* loop finished, [cs] = from i to e *)
| WFound (fd : Z) (rest : list text)   (* 272-276 *)
| WNothing.                            (* 277-280 *)

Fixpoint lookup_walk (d : dir) (cs : list text) : walk_result :=
  match cs with
  | c :: ((_ :: _) as rest) =>
      match get_dir d c with
      | LDirPtr sub => lookup_walk sub rest
      | LHandle fd => WFound fd rest
      | LMonostate => WNothing
      end
  | _ => WAt d cs
  end.

(** filetree.h 256-292 *)
Definition lookup_file (root : dir) (p : path) : option (Z * path) :=
  let w := if (1 <? length (comps p))%nat          (* 261 *)
           then lookup_walk root (comps p)
           else WAt root (comps p) in
  match w with
  | WFound fd rest => Some (fd, path_of_range rest)
  | WNothing => None
  | WAt d (c :: _) =>                              (* 283-290 *)
      match get_file d c with
      | Some fd => Some (fd, empty_path)
      | None => None
      end
  | WAt d [] => None
  end.

(** A host program that builds a tree: a list of add calls, each with the
    raw path and what is added there. *)
Inductive leaf : Type := LeafFile (fd : Z) | LeafDir (fd : Z).

Definition entry_of_leaf (l : leaf) : entry :=
  match l with LeafFile fd => EFile fd | LeafDir fd => EDirH fd end.

(** One public call: 301-306 / 312-317. *)
Definition add_call (d : dir) (c : text * leaf) : outcome (bool * dir) :=
  match snd c with
  | LeafFile fd => add_file d (fst c) fd
  | LeafDir fd => add_directory d (fst c) fd
  end.

Fixpoint run_adds (d : dir) (cs : list (text * leaf)) : outcome (list bool * dir) :=
  match cs with
  | [] => Ret ([], d)
  | c :: cs' =>
      obind (add_call d c) (fun r =>
      obind (run_adds (snd r) cs') (fun r' => Ret (fst r :: fst r', snd r')))
  end.
