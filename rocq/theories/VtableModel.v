(** Model of the C++ call wrappers (include/process_sandbox/cxxsandbox.h): the
    table of exported functions in the sandbox, the Function objects in the
    host, and one call through both, over Library::next_vtable_entry
    (include/process_sandbox/sandbox.h 545, 618-621).  The hand-over itself
    (Library::send, the run loop) is ProtoModel; here a call simply reaches the
    sandbox.  No proofs in this file. *)
From Coq Require Import String Ascii List ZArith Bool Arith.
From Verif Require Import Base.
Import ListNotations.
Open Scope Z_scope.

(** Argument and return values: numbers, or a C string the sandbox allocated. *)
Inductive val := VNum (z : Z) | VStr (s : option text).
(** Exported functions: the type query itself, or a function of the library with
    its typeid name. *)
Inductive fn := TypeQuery | User (id : nat) (sg : text).
Definition query_sig : text := tx "PFPciE".        (* char* ( * )(int) *)
Definition sig_of (f : fn) : text := match f with TypeQuery => query_sig | User _ s => s end.

(** *** Sandbox side *)

(** ExportedLibrary::export_function, 240-249. *)
Definition export_one (fs : list fn) (f : fn) : list fn := fs ++ [f].
Definition export_function (fs : list fn) (f : fn) : list fn :=
  let is_query := match f with TypeQuery => true | User _ _ => false end in
  let fs := if (length fs =? 0)%nat && negb is_query then export_one fs TypeQuery else fs in
  export_one fs f.
(** A library's sandbox_init. *)
Definition exports (fs : list fn) : list fn := fold_left export_function fs [].

(** argframe, 25-38: the return value and the arguments. *)
Record frame := Frame { f_ret : val; f_args : list val }.

(** How a call inside the sandbox ends: normally; by an exception or a crash,
    either of which ends the sandbox process (library_runner.cc 327-336); or
    with undefined behaviour. *)
Inductive inside := IReturn (v : val) | IDies | IUndefined.

(** ExportedFunction::operator(), 176-189, and ExportedLibrary::type_encoding,
    228-231.  [sem] is what the library's functions compute ([None]: they crash
    or throw), [strdup_ok] whether strdup finds memory.  A frame laid out for
    another signature is undefined. *)
Definition run_fn (fs : list fn) (sem : nat -> list val -> option val) (strdup_ok : bool) (f : fn) (sg : text) (args : list val) : inside :=
  if negb (text_eqb (sig_of f) sg) then IUndefined
  else match f with
       | TypeQuery =>
         match args with
         | [VNum i] => match (if i <? 0 then None else nth_error fs (Z.to_nat i)) with
                       | None => IDies                                      (* at() throws *)
                       | Some g => IReturn (VStr (if strdup_ok then Some (sig_of g) else None))
                       end
         | _ => IUndefined
         end
       | User id _ => match sem id args with Some v => IReturn v | None => IDies end
       end.
(** ExportedLibrary::call, 220-223: the index is not checked. *)
Definition sandbox_call (fs : list fn) sem (strdup_ok : bool) (idx : Z) (sg : text) (args : list val) : inside :=
  match (if idx <? 0 then None else nth_error fs (Z.to_nat idx)) with
  | None => IUndefined
  | Some f => run_fn fs sem strdup_ok f sg args
  end.

(** *** Host side *)

(** The part of a Library used here: the counter, and the call frames and
    strings in the sandbox's heap that the host has not freed. *)
Record lib := Lib { last_vtable_entry : Z; frames : list Z; strings : nat }.
Definition new_lib : lib := Lib 1 [] 0.
Definition next_vtable_entry (l : lib) : Z * lib :=
  (last_vtable_entry l, Lib (last_vtable_entry l + 1) (frames l) (strings l)).

(** A Function object, 45-72. *)
Record func := Func { vtable_index : Z; f_sig : text }.

(** operator(), 99-119.  [mem] is the address the sandbox allocator gives for
    the frame ([None]: no memory). *)
Inductive result := Returns (v : val) | Throws_terminated | Throws_bad_alloc | Undefined.
Definition call (fs : list fn) sem (strdup_ok : bool) (mem : option Z) (f : func) (args : list val) (l : lib) : result * lib :=
  match mem with
  | None => (Throws_bad_alloc, l)
  | Some p =>
    let l := Lib (last_vtable_entry l) (frames l ++ [p]) (strings l) in
    match sandbox_call fs sem strdup_ok (vtable_index f) (f_sig f) args with
    | IReturn v => (Returns v, Lib (last_vtable_entry l) (removelast (frames l))
                      (strings l + match v with VStr (Some _) => 1 | _ => 0 end))
    | IDies => (Throws_terminated, l)
    | IUndefined => (Undefined, l)
    end
  end.

(** Function's public constructor, 82-94. *)
Inductive made := Made (f : func) | HostExits | NotMade (r : result).
Definition construct (debug : bool) (fs : list fn) sem (strdup_ok : bool) (mem : option Z) (sg : text) (l : lib) : made * lib :=
  let (idx, l) := next_vtable_entry l in
  if debug then
    match call fs sem strdup_ok mem (Func 0 query_sig) [VNum idx] l with
    | (Returns (VStr (Some s)), l) =>
      if text_eqb s sg then (Made (Func idx sg), Lib (last_vtable_entry l) (frames l) (pred (strings l)))
      else (HostExits, l)
    | (Returns _, l) => (HostExits, l)
    | (r, l) => (NotMade r, l)
    end
  else (Made (Func idx sg), l).
(** A structure whose fields are Function objects: constructed in order. *)
Fixpoint construct_all (debug : bool) (fs : list fn) sem (mem : Z) (sgs : list text) (l : lib) : list made * lib :=
  match sgs with
  | [] => ([], l)
  | sg :: r =>
    let (m, l) := construct debug fs sem true (Some mem) sg l in
    match m with
    | Made _ => let (ms, l) := construct_all debug fs sem mem r l in (m :: ms, l)
    | _ => ([m], l)
    end
  end.
