(** Specification of what a host's descriptors and exports are after any history
    that mixes the program's own actions with requests of the sandbox. *)
From Coq Require Import String Ascii List ZArith Bool.
From Verif Require Import Base PathModel FileTreeModel RegionModel RegionSpec DispatchModel HostCallsModel HostCallsSpec NetProps
  HandleModel OwnModel OwnSpec GateModel.
Import ListNotations.
Local Open Scope Z_scope.

(** The part of a history that is the program's use of descriptors; its network
    settings. *)
Definition program (es : list (gop * gresult)) : list (op * OwnModel.result) :=
  flat_map (fun e => match e with (Host o, Did r) => [(o, r)] | _ => [] end) es.
Definition settings (es : list (gop * gresult)) : list (netop * policy) :=
  flat_map (fun e => match e with (Setting o p, _) => [(o, p)] | _ => [] end) es.

(** The numbers open after the operations [ops], when [open] were before. *)
Definition opens (o : kop) : bool := match o with KOpenat2 _ _ _ _ _ | KDup _ => true | _ => false end.
Fixpoint open_after (k : kernel) (open : list Z) (before ops : list kop) : list Z :=
  match ops with
  | [] => open
  | o :: r =>
      let open' := match o with
        | KClose f => remove Z.eq_dec f open
        | _ => if opens o && (0 <=? fst (k before o)) then fst (k before o) :: open else open
        end in
      open_after k open' (before ++ [o]) r
  end.

(** The kernel: a number handed out is not in use, and nothing is opened through a
    number that is not open. *)
Definition fair (k : kernel) (open : list Z) : Prop :=
  forall ops o f, opens o = true -> subject o = Some f -> 0 <= fst (k ops o) ->
  ~ In (fst (k ops o)) (open_after k open [] ops) /\ In f (open_after k open [] ops).

(** The numbers that arrive with a message. *)
Definition arriving (q : request) : list Z :=
  q_lost q ++ match q_msg q with Some (_, Some n) => [n] | _ => [] end.

(** The program obeys the rules of OwnSpec; a request holds words and the kernel
    is fair to it.  Nothing is assumed of what the sandbox asks for. *)
Definition gallowed (es : list (gop * gresult)) (g : gate) (o : gop) : Prop :=
  match o with
  | Host o => allowed (program es) (own g) o
  | Setting _ _ => True
  | Serve q =>
      tree (own g) <> None /\
      (forall rq fd, q_msg q = Some (rq, fd) -> is_word (cr_kind rq) /\ is_word (cr_size rq) /\ is_word (cr_data rq)) /\
      NoDup (arriving q) /\ (forall n, In n (arriving q) -> 0 <= n /\ lookup n (kern (own g)) = None) /\
      fair (q_kernel q) (map fst (kern (own g)) ++ arriving q)
  end.
Inductive gruns (debug : bool) (h : heap) : list (gop * gresult) -> gate -> Prop :=
| gruns_0 : gruns debug h [] new_gate
| gruns_snoc es g o g' r :
    gruns debug h es g -> gallowed es g o -> gstep debug h o g = (g', r) -> gruns debug h (es ++ [(o, r)]) g'.

(** [f] is what a lookup of an exported file answers with, and [u] what it refers
    to; -1 is an empty Handle. *)
Definition exported_file_is (s : state) (f : Z) (u : option nat) : Prop :=
  exists t p tail, tree s = Some t /\ lookup_file t p = Some (f, tail) /\ comps tail = [] /\
    (f = -1 /\ u = None \/ exists w, u = Some w /\ lookup f (kern s) = Some w).
(** The same for a lookup of something beneath an exported directory, [tail]. *)
Definition exported_dir_is (s : state) (f : Z) (u : option nat) (names : list text) : Prop :=
  exists t p tail, tree s = Some t /\ lookup_file t p = Some (f, tail) /\ comps tail = names /\ names <> [] /\
    (f = -1 /\ u = None \/ exists w, u = Some w /\ lookup f (kern s) = Some w).

(** What the descriptor that came with the request refers to: it gets the identity
    after those that were dropped on arrival. *)
Definition received (s : state) (q : request) : option nat :=
  match q_msg q with Some (_, Some _) => Some (next s + length (q_lost q))%nat | _ => None end.

(** What an operation of a request may be about, in a host in state [s] with the
    network settings [hist]: [got] came with the request, [mine] was opened by
    earlier operations of the same request.  8 is RESOLVE_BENEATH, 2097152 O_PATH,
    4096 AT_EMPTY_PATH. *)
Inductive rightful (s : state) (hist : list (netop * policy)) (got : option nat) (mine : list nat) : kop -> option nat -> Prop :=
| R_dup f u : exported_file_is s f u -> rightful s hist got mine (KDup f) u
| R_fstat f u buf : exported_file_is s f u -> rightful s hist got mine (KFstat f buf) u
| R_open_file f u : exported_file_is s f u -> rightful s hist got mine (KOpenat2 f None 2097152 0 8) u
| R_open f u p tail flags mode : exported_dir_is s f u tail -> beneath_path p tail ->
    rightful s hist got mine (KOpenat2 f (Some p) flags mode 8) u
| R_open_sent f path flags mode : (got = None -> f = -1) -> rightful s hist got mine (KOpenat2 f path flags mode 8) got
| R_stat_opened f u buf : In u mine -> rightful s hist got mine (KFstatat f [] buf 4096) (Some u)
| R_access_opened f u mode : In u mine -> rightful s hist got mine (KFaccessat2 f [] mode 4096) (Some u)
| R_close_opened f u : In u mine -> rightful s hist got mine (KClose f) (Some u)
| R_close_sent f u : got = Some u -> rightful s hist got mine (KClose f) (Some u)
| R_net who op f buf len setting u : last_setting op hist (Some setting) ->
    (setting = PAllow /\ who = BySystem \/ exists tag, setting = PCallback tag /\ who = ByHandler tag) ->
    got = Some u -> rightful s hist got mine (KNet who op (NAddr f buf len)) (Some u)
| R_names who op host service hints setting : last_setting op hist (Some setting) ->
    (setting = PAllow /\ who = BySystem \/ exists tag, setting = PCallback tag /\ who = ByHandler tag) ->
    rightful s hist got mine (KNet who op (NNames host service hints)) None.

(** What the events opened and closed, in this order. *)
Definition opened_in (es : list seen) : list nat :=
  flat_map (fun e => match e with Asked _ _ (Some u) => [u] | _ => [] end) es.
Definition closed_in (es : list seen) : list (option nat) :=
  flat_map (fun e => match e with Asked (KClose _) on _ => [on] | _ => [] end) es.
(** The answers to the sandbox. *)
Definition answers_in (es : list seen) : list seen :=
  filter (fun e => match e with Asked _ _ _ => false | _ => true end) es.
