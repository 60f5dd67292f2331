(** Specification: what the host's own code sees of the sandbox, as nested
    procedure calls.  Uses only the events of the log. *)
From Coq Require Import List ZArith Bool.
From Verif Require Import ProtoModel.
Import ListNotations.
Open Scope Z_scope.

(** What is open in the host: a call into the sandbox, or a handler. *)
Inductive item := OpCall (i b : Z) | OpHandler (k : Z) | Closed.

(** [nest l st]: the history [l] is properly nested and leaves [st] open,
    innermost first.  A call starts at top level or in a handler; a handler
    starts in a call; each ends only when it is innermost; an exception ends
    everything; destruction comes last and with nothing open. *)
Inductive nest : list event -> list item -> Prop :=
| nest_0 : nest [] []
| nest_req_top l i b : nest l [] -> nest (l ++ [EReq i b]) [OpCall i b]
| nest_req l i b k st : nest l (OpHandler k :: st) -> nest (l ++ [EReq i b]) (OpCall i b :: OpHandler k :: st)
| nest_handle l i b k st : nest l (OpCall i b :: st) -> nest (l ++ [EHandle k]) (OpHandler k :: OpCall i b :: st)
| nest_handled l k r st : nest l (OpHandler k :: st) -> nest (l ++ [EHandled k r]) st
| nest_done l i b st : nest l (OpCall i b :: st) -> nest (l ++ [EDone i b]) st
| nest_throw l i b st : nest l (OpCall i b :: st) -> nest (l ++ [EThrow]) []
| nest_quit l : nest l [] -> nest (l ++ [EQuit]) [Closed].

(** The payloads for which a handler ran, and the results handlers returned. *)
Definition handled (l : list event) : list Z :=
  flat_map (fun e => match e with EHandle k => [k] | _ => [] end) l.
Definition results (l : list event) : list Z :=
  flat_map (fun e => match e with EHandled _ r => [r] | _ => [] end) l.

(** The host stores nothing else in the header: the function number and frame of
    the call in progress, a flag, one token for the sandbox, or one less than
    what is there. *)
Inductive documented_write (st : list item) (v : shared) : shared -> Prop :=
| w_none : documented_write st v v
| w_depth : documented_write st v (set_depth (depth v - 1) v)
| w_parent : documented_write st v (set_pflag (pflag v - 1) v)
| w_child : cflag v = 0 -> documented_write st v (set_cflag 1 v)
| w_exec : documented_write st v (set_executing true v)
| w_exit : st = [Closed] -> documented_write st v (set_should_exit true v)
| w_index i b r : st = OpCall i b :: r -> documented_write st v (set_findex i v)
| w_frame i b r : st = OpCall i b :: r -> documented_write st v (set_mbuf b v).
