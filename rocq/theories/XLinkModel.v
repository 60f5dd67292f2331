(** LinkModel.v for programs whose callback handlers may throw: the program's code
    decides between a command and an exception, which leaves every handler and call
    in progress and is caught by the program's top-level code (ThrowModel.v).
    Function::operator() (include/process_sandbox/cxxsandbox.h 99-119) has no
    handler, so an exception that leaves Library::send (108) leaves the argument
    frame allocated: the lib.free of 112 and 117 is not reached.
    No proofs in this file. *)
From Coq Require Import List ZArith.
From Verif Require Import ProtoModel FrameModel LinkModel ThrowModel.
Import ListNotations.
Open Scope Z_scope.

Inductive xcmd := Do (c : hcmd) | Throw.

Section XLink.
Variable xcode : list obs -> xcmd.
Variable fcode : list obs -> fcmd.
Variable sig : Z -> layout.
Variable place : world -> Z -> Z.
Variable other : world -> memory.

(** The commands alone; what an exception is replaced with does not matter, as
    [xhost_do] does not make a call or return there.  At the top level an exception
    leaves the code that owns the Library, which is destroyed as when that code
    ends (ThrowModel.plain). *)
Definition commands (t : list obs) : hcmd := match xcode t with Do c => c | Throw => Give 0 end.
Definition xreplay : list event -> world := replay commands fcode sig other.
Definition xhost_do (l : list event) : xact :=
  let w := xreplay l in
  match xcode (seen w) with
  | Do (Call i _) => XDo (HCall i (place w i))
  | Do (Give r) => XDo (HReturn r)
  | Throw => XThrow false
  end.
Definition xchild_do : list event -> cact := child_do commands fcode sig other.
End XLink.
