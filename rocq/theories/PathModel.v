(** Model of include/process_sandbox/path.h (class sandbox::Path). *)
From Coq Require Import String Ascii List ZArith Bool.
From Verif Require Import Base.
Import ListNotations.

(** path.h 19-29: the two data members of class Path. *)
Record path : Type := mkPath
{ is_abs : bool;            (* path.h 24: isAbsolute *)
  comps : list text }.      (* path.h 29: components *)

(** path.h 34-55, [next_separator].  An iterator is modelled by the text from
    it up to [end]; the result is the returned bool and the final [cur].
    The two [++cur] of the loop body and the test between them are kept. *)
Fixpoint next_separator (cur : text) : bool * text :=
  match cur with
  | [] => (false, [])                                  (* 37, 54 *)
  | c :: rest =>
      if ascii_dec c slash then (true, cur)            (* 40-43 *)
      else
        match rest with
        | [] => (false, [])                            (* 45-48 *)
        | d :: rest' =>
            if ascii_dec d backslash
            then next_separator rest'                  (* 49-52 *)
            else next_separator rest
        end
  end.

(** The text between two iterators into the same string. *)
Definition between (b n : text) : text := firstn (length b - length n) b.

(** path.h 74-85: the splitting loop of the constructor.  [b] is [begin];
    [next == begin] at the loop head (74, 80).  [fuel] bounds the number of
    iterations. *)
Fixpoint split_loop (fuel : nat) (b : text) (acc : list text)
  : outcome (list text) :=
  match fuel with
  | O => OutOfFuel
  | S fuel' =>
      match next_separator b with
      | (true, n) =>
          let c := between b n in                      (* 78 *)
          match n with
          | [] => UB                                   (* ++next past the end *)
          | _ :: n' => split_loop fuel' n' (acc ++ [c])  (* 79-80 *)
          end
      | (false, _) =>
          Ret (match b with
               | [] => acc                             (* 82 *)
               | _ => acc ++ [b]                       (* 84 *)
               end)
      end
  end.

(** path.h 66-86: [Path(std::string_view)].  [*begin] on an empty view is
    undefined behaviour (69). *)
Definition path_of_view (raw : text) : outcome path :=
  match raw with
  | [] => UB
  | c :: rest =>
      let abs := if ascii_dec c slash then true else false in
      let b := if abs then rest else raw in
      obind (split_loop (S (length raw)) b []) (fun cs => Ret (mkPath abs cs))
  end.

(** The same constructor applied to a NUL-terminated C string, as all callers
    in libsandbox.cc do: the view excludes the terminator, and for the empty
    string [*begin] reads the terminator, which is not '/'.  (Formally still
    outside the view; [path_of_view] reports that as UB.) *)
Definition path_of_cstr (s : text) : outcome path :=
  match s with
  | [] => Ret (mkPath false [])
  | _ => path_of_view s
  end.

(** path.h 91 *)
Definition empty_path : path := mkPath false [].

(** path.h 96-99: [Path(b, e)] from a range of components. *)
Definition path_of_range (cs : list text) : path := mkPath false cs.

(** path.h 104-107 *)
Definition is_empty (p : path) : bool :=
  match comps p with [] => true | _ => false end.

(** path.h 112-126: [str()]. *)
Fixpoint str_loop (insert_slash : bool) (cs : list text) : text :=
  match cs with
  | [] => []
  | c :: cs' => (if insert_slash then [slash] else []) ++ c ++ str_loop true cs'
  end.

Definition str (p : path) : text := str_loop (is_abs p) (comps p).

(** path.h 141-145 *)
Definition remove_empty (p : path) : path :=
  mkPath (is_abs p)
    (filter (fun c => negb (Nat.eqb (length c) 0)) (comps p)).

(** path.h 151-175.  The std::list and the iterator [current] are a zipper:
    [left] holds the elements before [current] in reverse, [right] those from
    [current] on.  Returns the success flag and the final list. *)
Fixpoint remove_dotdot_loop (left right : list text) : bool * list text :=
  match right with
  | [] => (true, rev left)                                      (* 174 *)
  | c :: right' =>
      if negb (text_eqb c dotdot)
      then remove_dotdot_loop (c :: left) right'                (* 158-162 *)
      else
        match left with
        | [] => (false, right)                                  (* 164-167 *)
        | _ :: left' => remove_dotdot_loop left' right'         (* 169-172 *)
        end
  end.

Definition remove_dotdot (p : path) : bool * path :=
  let r := remove_dotdot_loop [] (comps p) in
  (fst r, mkPath (is_abs p) (snd r)).

(** path.h 185-189 *)
Definition canonicalise (p : path) : bool * path := remove_dotdot (remove_empty p).

(** path.h 195-202.  [debug] tells whether SANDBOX_DEBUG_INVARIANT is active. *)
Definition make_absolute (debug : bool) (p base : path) : outcome path :=
  if debug && is_abs p then Aborts
  else Ret (mkPath true (comps base ++ comps p)).

(** path.h 131-135: [getcwd()].  [cwd] is what ::getcwd(nullptr, 0) answers,
    [None] being the null pointer it returns when the directory was removed,
    cannot be read, or memory is short; a string_view of it is undefined
    behaviour. *)
Definition path_getcwd (cwd : option text) : outcome path :=
  match cwd with Some s => path_of_cstr s | None => UB end.

(** path.h 195-202 with the default argument, which is evaluated first. *)
Definition make_absolute_default (debug : bool) (cwd : option text) (p : path) : outcome path :=
  obind (path_getcwd cwd) (make_absolute debug p).
