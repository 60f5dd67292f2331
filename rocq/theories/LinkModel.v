(** Model of a program that uses a sandboxed library through Function objects:
    the user's code on both sides, the argument frames in shared memory and the
    token protocol together.  Function::operator() (include/process_sandbox/
    cxxsandbox.h 99-119) and ExportedFunction::operator() (175-187) over the
    frames of FrameModel.v, driven by the events of ProtoModel.v
    (src/libsandbox.cc Library::send, src/library_runner.cc runloop).
    No proofs in this file. *)
From Coq Require Import List ZArith Bool.
From Verif Require Import ProtoModel FrameModel.
Import ListNotations.
Open Scope Z_scope.

(** What the user's code on the two sides does and sees; values are bytes. *)
Inductive obs :=
| OCall (i : Z) (args : list (list Z))     (* host: calls function i *)
| OStart (i : Z) (args : list (list Z))    (* library: function i runs with these arguments *)
| OCallback (k : Z)                        (* library: calls back *)
| OHandle (k : Z)                          (* host: the handler runs *)
| OHandled (k r : Z)                       (* host: the handler returns r *)
| OResume (k r : Z)                        (* library: the callback returned r *)
| OReturn (i : Z) (v : list Z)             (* library: function i returns v *)
| ODone (i : Z) (v : list Z)               (* host: its call returned v *)
| OQuit                                    (* host: the Library is being destroyed *)
| OThrow.                                  (* host: the call threw *)

(** The user's code: the next action, any function of everything seen so far.
    [Give] is a handler's return, or at top level the end of the library's use;
    a void function returns no bytes (cxxsandbox.h 109-118, 179-186). *)
Inductive hcmd := Call (i : Z) (args : list (list Z)) | Give (r : Z).
Inductive fcmd := Back (k : Z) | Result (v : list Z).

(** An allocated argument frame: stored by the host, in use by the function, or
    holding its result. *)
Inductive phase := PSent | PRunning | PFinished.
Record frame := Frame { f_fn : Z; f_at : Z; f_phase : phase }.
Record world := World { mem : memory; frames : list frame; seen : list obs }.

Definition mark (b : Z) (ph : phase) (fs : list frame) : list frame :=
  map (fun f => if f_at f =? b then Frame (f_fn f) b ph else f) fs.
Definition release (b : Z) (fs : list frame) : list frame := filter (fun f => negb (f_at f =? b)) fs.

Section Link.
Variable hcode : list obs -> hcmd.
Variable fcode : list obs -> fcmd.
(** The argframe<Ret, Args...> of each function of the interface. *)
Variable sig : Z -> layout.
(** Library::alloc, sandbox.h 690-704: where the next frame goes. *)
Variable place : world -> Z -> Z.
(** What everything else, in both processes, does to the memory between two
    events. *)
Variable other : world -> memory.

Definition meanwhile (w : world) : world := World (other w) (frames w) (seen w).
Definition note (o : obs) (w : world) : world := World (mem w) (frames w) (seen w ++ [o]).
Definition read_args (m : memory) (b : Z) (L : layout) : list (list Z) :=
  map (fun '(off, n) => bytes_at m (b + off) n) (l_args L).

Definition effect (w : world) (e : event) : world :=
  match e with
  | EReq i b =>                                       (* 101-108 *)
    match hcode (seen w) with
    | Call _ args => World (put_bytes (mem w) (frame_stores b (sig i) args)) (Frame i b PSent :: frames w)
                           (seen w ++ [OCall i args])
    | Give _ => w
    end
  | EInvoke i b =>                                    (* 178-181 *)
    World (mem w) (mark b PRunning (frames w)) (seen w ++ [OStart i (read_args (mem w) b (sig i))])
  | EReturn i b =>                                    (* 181 *)
    match fcode (seen w) with
    | Result v => World (put_bytes (mem w) (at_addr (b + fst (l_ret (sig i))) v)) (mark b PFinished (frames w))
                        (seen w ++ [OReturn i v])
    | Back _ => w
    end
  | EDone i b =>                                      (* 111-118 *)
    World (mem w) (release b (frames w))
          (seen w ++ [ODone i (bytes_at (mem w) (b + fst (l_ret (sig i))) (snd (l_ret (sig i))))])
  | ECallback k => note (OCallback k) w
  | EHandle k => note (OHandle k) w
  | EHandled k r => note (OHandled k r) w
  | EResume k r => note (OResume k r) w
  | EQuit => note OQuit w
  | EThrow => note OThrow w
  end.

Definition start : world := World (fun _ => 0) [] [].
Definition replay (l : list event) : world := fold_left (fun w e => effect (meanwhile w) e) l start.

(** The two programs as the protocol sees them. *)
Definition host_do (l : list event) : hact :=
  let w := replay l in
  match hcode (seen w) with Call i _ => HCall i (place w i) | Give r => HReturn r end.
Definition child_do (l : list event) : cact :=
  match fcode (seen (replay l)) with Back k => CCallback k | Result _ => CReturn end.
End Link.
