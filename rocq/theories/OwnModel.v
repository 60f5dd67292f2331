(** Model of who owns the descriptors exported through ExportedFileTree
    (include/process_sandbox/filetree.h): the same add functions as in
    FileTreeModel, with the Handles they destroy, over a kernel descriptor table
    as in HandleModel.  No proofs in this file. *)
From Coq Require Import List ZArith Bool.
From Verif Require Import Base PathModel FileTreeModel HandleModel.
Import ListNotations.
Local Open Scope Z_scope.

(** The descriptor fields of the Handles that go when an entry of a directory
    goes (104-106): one for a FileHandle or a DirHandle; for a DirPtr, which is
    the only reference once add_handle has returned, all those of the directory
    it points to.  The order in which the map destroys its elements is not
    specified; the model takes that of the list. *)
Fixpoint entry_fds (e : entry) : list Z :=
  match e with
  | ETree d => flat_map (fun x => entry_fds (snd x)) d
  | EFile fd => [fd]
  | EDirH fd => [fd]
  end.
Definition tree_fds (d : dir) : list Z := flat_map (fun x => entry_fds (snd x)) d.

(** What the assignment [directory[name] = ...] (167-188) destroys: the value
    that was there, if any.  std::variant's assignment either move-assigns the
    Handle, which closes the old one (platform.h 99-104), or destroys the old
    alternative; the effect is the same. *)
Definition replaced (d : dir) (name : text) : list Z :=
  match dfind d name with Some e => entry_fds e | None => [] end.

(** filetree.h 211-240, as [FileTreeModel.add_loop], with the Handles destroyed
    on the way. *)
Fixpoint own_loop (fuel : nat) (p : text) (it fin : Z) (d : dir) (leaf : entry)
  : outcome (bool * dir * list Z) :=
  match fuel with
  | O => OutOfFuel
  | S fuel' =>
      if it <? fin then
        let next := find_first_of p (wrap (it + 1)) in
        obind (substr p (wrap (it + 1)) (wrap (next - it - 1)))
          (fun component =>
             match get_dir d component with
             | LDirPtr sub =>
                 obind (own_loop fuel' p next fin sub leaf)
                   (fun '(ok, sub', dead) => Ret (ok, dset d component (ETree sub'), dead))
             | LMonostate =>                      (* 226-231: add_tree may replace a file *)
                 obind (own_loop fuel' p next fin [] leaf)
                   (fun '(ok, sub', dead) =>
                      Ret (ok, dset d component (ETree sub'), replaced d component ++ dead))
             | LHandle _ => Ret (false, d, [])
             end)
      else
        obind (substr p (wrap (it + 1)) npos)
          (fun component => Ret (true, dset d component leaf, replaced d component))
  end.
Definition own_handle (d : dir) (p : text) (leaf : entry) : outcome (bool * dir * list Z) :=
  own_loop (S (S (length p))) p 0 (find_last_of p) d leaf.

(** [tree]: the exported tree, [None] once destroyed; [kern]: the open
    descriptors with the identity of what they refer to; [next]: the next
    identity; [closes]: every close(2), with the identity that went away. *)
Record state := St { tree : option dir; kern : list (Z * nat); next : nat; closes : list (Z * option nat) }.
Definition init : state := St (Some []) [] 0 [].

(** The number under which something is open. *)
Fixpoint number (u : nat) (k : list (Z * nat)) : Z :=
  match k with
  | [] => -1
  | (n, w) :: r => if Nat.eqb w u then n else number u r
  end.

(** ~Handle of each (platform.h 66-73, 137-140); [None]: the assertion of
    is_valid fails (debug builds, 58-65). *)
Fixpoint destroy (debug : bool) (fds : list Z) (k : list (Z * nat)) (c : list (Z * option nat))
  : option (list (Z * nat) * list (Z * option nat)) :=
  match fds with
  | [] => Some (k, c)
  | n :: r =>
      if n <? 0 then destroy debug r k c
      else match lookup n k with
           | None => if debug then None else destroy debug r k (c ++ [(n, None)])
           | Some u => destroy debug r (drop n k) (c ++ [(n, Some u)])
           end
  end.

(** What the host program does.  It thinks of a descriptor as what it refers to,
    the code as a number.  [Add p file who]: add_file or add_directory (301-317)
    at the text [p] with a Handle that owns [who], or an empty one. *)
Inductive op :=
| Open (n : Z)                                    (* the kernel picks the number *)
| Add (p : text) (file : bool) (who : option nat)
| Close (u : nat)                                 (* the host closes one of its own, e.g. by ~Handle *)
| Drop.                                           (* ~ExportedFileTree *)
Inductive result := Opened (u : nat) | Answer (ok : bool) | Threw | Done | Aborted.

Definition step (debug : bool) (o : op) (s : state) : state * result :=
  match o with
  | Open n => (St (tree s) (kern s ++ [(n, next s)]) (S (next s)) (closes s), Opened (next s))
  | Add p file who =>
      match tree s with
      | None => (s, Done)
      | Some t =>
          let fd := match who with Some u => number u (kern s) | None => -1 end in
          match own_handle t p (if file then EFile fd else EDirH fd) with
          | Ret (ok, t', dead) =>
              match destroy debug dead (kern s) (closes s) with
              | Some (k, c) => (St (Some t') k (next s) c, Answer ok)
              | None => (s, Aborted)
              end
          | _ => (s, Threw)
          end
      end
  | Close u =>
      let n := number u (kern s) in
      match destroy debug [n] (kern s) (closes s) with
      | Some (k, c) => (St (tree s) k (next s) c, Done)
      | None => (s, Aborted)
      end
  | Drop =>
      match tree s with
      | None => (s, Done)
      | Some t =>
          match destroy debug (tree_fds t) (kern s) (closes s) with
          | Some (k, c) => (St None k (next s) c, Done)
          | None => (s, Aborted)
          end
      end
  end.
