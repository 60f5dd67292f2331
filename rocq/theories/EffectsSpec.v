(** What the host may do at a sandbox's request. *)
From Coq Require Import String Ascii List ZArith Bool.
From Verif Require Import Base RegionSpec HostCallsModel HostCallsSpec NetProps.
Import ListNotations.
Open Scope Z_scope.

(** Whole blocks inside [lo, hi). *)
Definition inside (lo hi : Z) (b : Z * Z) : Prop := lo <= fst b /\ fst b + snd b <= hi.

(** [f] is a descriptor that one of the operations [before] opened. *)
Definition opened (k : kernel) (before : list kop) (f : Z) : Prop :=
  0 <= f /\ exists pre op post, before = pre ++ op :: post /\ f = fst (k pre op) /\
    match op with KOpenat2 _ _ _ _ _ | KDup _ => True | _ => False end.

(** An operation that may follow the operations [before], in a host with exports
    [ex] and network settings [hist], serving a request that came with [sent].
    8 is RESOLVE_BENEATH, 2097152 O_PATH, 4096 AT_EMPTY_PATH. *)
Inductive permitted (k : kernel) (ex : exports) (hist : list (netop * policy)) (sent : option Z) (before : list kop) : kop -> Prop :=
| P_dup q f : exported_file ex q f -> permitted k ex hist sent before (KDup f)
| P_open q f p tail flags mode : exported_dir ex q f -> beneath_path p tail ->
    permitted k ex hist sent before (KOpenat2 f (Some p) flags mode 8)
| P_open_null q f : exported_file ex q f -> permitted k ex hist sent before (KOpenat2 f None 2097152 0 8)
| P_open_sent f path flags mode : sent = Some f -> permitted k ex hist sent before (KOpenat2 f path flags mode 8)
| P_open_nowhere path flags mode : sent = None -> permitted k ex hist sent before (KOpenat2 (-1) path flags mode 8)
| P_fstat q f buf : exported_file ex q f -> permitted k ex hist sent before (KFstat f buf)
| P_stat_opened f buf : opened k before f -> permitted k ex hist sent before (KFstatat f [] buf 4096)
| P_access_opened f mode : opened k before f -> permitted k ex hist sent before (KFaccessat2 f [] mode 4096)
| P_close_opened f : opened k before f -> permitted k ex hist sent before (KClose f)
| P_close_sent f : sent = Some f -> permitted k ex hist sent before (KClose f)
| P_net who op a setting : last_setting op hist (Some setting) ->
    (setting = PAllow /\ who = BySystem \/ exists tag, setting = PCallback tag /\ who = ByHandler tag) ->
    (forall f buf len, a = NAddr f buf len -> sent = Some f) ->
    permitted k ex hist sent before (KNet who op a).

(** A whole sequence of operations. *)
Definition all_permitted (k : kernel) (ex : exports) (hist : list (netop * policy)) (sent : option Z) (ops : list kop) : Prop :=
  forall before op after, ops = before ++ op :: after -> permitted k ex hist sent before op.

(** The blocks of memory an operation names for its answer. *)
Definition answers_inside (lo hi : Z) (op : kop) : Prop :=
  match op with KFstat _ buf | KFstatat _ _ buf _ => inside lo hi (buf, 144) | _ => True end.

(** [x] lies in one of the blocks [l]. *)
Definition covers (l : list (Z * Z)) (x : Z) : Prop := exists a n, In (a, n) l /\ a <= x < a + n.
