(** Specification vocabulary for concurrent use of a sandbox's memory: calls
    and returns as an observer sees them, what it means that operations take
    effect one at a time, and what the program and the sandboxes promise. *)
From Coq Require Import List ZArith Bool.
From Verif Require Import Base RegionSpec MemSvcModel MemSvcSpec MemConcModel.
Import ListNotations.
Open Scope Z_scope.

(** What an observer sees: thread [t] starts an operation, or it returns. *)
Inductive label :=
| LCall (t : nat) (op : event)
| LRet (t : nat) (op : event) (r : response).

(** ** Operations take effect one at a time *)

(** [one_at_a_time s ls tr s']: every operation of the observed sequence [ls]
    can be given one instant between its call and its return, such that the
    operations in the order of their instants, with their results, are [tr].
    [s] says for each thread whether it is outside an operation, inside one
    before its instant, or inside one after its instant. *)
Inductive status := SIdle | SPending (op : event) | SCommitted (op : event) (r : response).
Definition set_status (s : nat -> status) (t : nat) (v : status) : nat -> status :=
  fun u => if Nat.eqb u t then v else s u.

Inductive one_at_a_time :
  (nat -> status) -> list label -> list (event * response) -> (nat -> status) -> Prop :=
| O_nil s : one_at_a_time s [] [] s
| O_call s t op ls tr s' : s t = SIdle ->
    one_at_a_time (set_status s t (SPending op)) ls tr s' ->
    one_at_a_time s (LCall t op :: ls) tr s'
| O_instant s t op r ls tr s' : s t = SPending op ->
    one_at_a_time (set_status s t (SCommitted op r)) ls tr s' ->
    one_at_a_time s ls ((op, r) :: tr) s'
| O_ret s t op r ls tr s' : s t = SCommitted op r ->
    one_at_a_time (set_status s t SIdle) ls tr s' ->
    one_at_a_time s (LRet t op r :: ls) tr s'.

(** ** Who holds which byte, from calls and returns alone *)

(** Start and size of the memory of library [i]. *)
Definition region_of (st : gstate) (i : nat) : Z * Z :=
  match nth_error (g_box st) i with Some b => (b_shm b, region_size b) | None => (0, 0) end.

(** A byte is held from the return of the allocation that gave it until the
    call that frees it, or the call that destroys its library. *)
Definition hold_after (st : gstate) (h : Z -> who) (l : label) : Z -> who :=
  match l with
  | LCall _ (EvReq _ rq) =>
    if rq_kind rq =? 1
    then (fun x => if (rq_0 rq <=? x) && (x <? rq_0 rq + rq_1 rq)
                   then match h x with Sandbox => Nobody | w => w end else h x)
    else h
  | LCall _ (EvHostFree _ a size) => set_owner h a size Nobody
  | LCall _ (EvDestroy i) => set_owner h (fst (region_of st i)) (snd (region_of st i)) Nobody
  | LRet _ (EvReq _ rq) r =>
    if (rs_error r =? 0) && (rq_kind rq =? 0) then set_owner h (rs_ret r) (rq_0 rq) Sandbox else h
  | LRet _ (EvHostAlloc _ size _ _) r =>
    if rs_error r =? 0 then set_owner h (rs_ret r) size Host else h
  | _ => h
  end.

(** The slab metadata and the second word that the host's allocator stored for
    a byte, from calls and returns alone: from the return of its allocation
    until the call that frees it or destroys its library. *)
Definition slab_after (st : gstate) (m : Z -> option (Z * Z)) (l : label) : Z -> option (Z * Z) :=
  match l with
  | LRet _ (EvHostAlloc _ size ras mp) r =>
    if rs_error r =? 0
    then (fun x => if (rs_ret r <=? x) && (x <? rs_ret r + size) then Some (mp, ras) else m x)
    else m
  | LCall _ (EvHostFree _ a size) =>
    (fun x => if (a <=? x) && (x <? a + size) then None else m x)
  | LCall _ (EvDestroy i) =>
    (fun x => if (fst (region_of st i) <=? x) && (x <? fst (region_of st i) + snd (region_of st i))
              then None else m x)
  | _ => m
  end.

(** ** What the environment promises *)

(** The block lies in the memory of library [i], which exists. *)
Definition in_box (st : gstate) (i : nat) (a size : Z) : Prop :=
  exists b, nth_error (g_box st) i = Some b /\ b_live b = true /\
            b_shm b <= a /\ a + size <= b_shm b + region_size b.

(** No thread is inside an operation on library [i]; no thread is destroying it. *)
Definition unused (cs : cstate) (i : nat) : Prop :=
  forall u op p, c_thr cs u = Some (op, p) -> op_box op <> Some i.
Definition not_being_destroyed (cs : cstate) (i : nat) : Prop :=
  forall u p, c_thr cs u <> Some (EvDestroy i, p).

(** Requests run on the service thread, all else on other threads.
    Sandboxes send any words, but name naturally aligned blocks when they free.
    The host allocates power-of-two chunk sizes with aligned metadata, and
    frees naturally aligned blocks of the region all of whose bytes it holds.
    A library that exists is destroyed once nothing uses it, and then not used
    any more. *)
Definition call_ok (c : cfg) (cs : cstate) (h : Z -> who) (t : nat) (op : event) : Prop :=
  match op with
  | EvReq i rq =>
    t = 0%nat /\ request_words rq /\ (rq_kind rq = 1 -> (rq_1 rq | rq_0 rq)) /\
    not_being_destroyed cs i
  | EvHostAlloc i size _ mp =>
    t <> 0%nat /\ chunk_size c size /\ ((16 | mp) /\ 0 <= mp) /\ not_being_destroyed cs i
  | EvHostFree i a size =>
    t <> 0%nat /\ chunk_size c size /\ (size | a) /\ in_box (c_mem cs) i a size /\
    (forall x, a <= x < a + size -> h x = Host) /\ not_being_destroyed cs i
  | EvCreate _ _ => t <> 0%nat
  | EvDestroy i =>
    t <> 0%nat /\ (exists b, nth_error (g_box (c_mem cs)) i = Some b /\ b_live b = true) /\ unused cs i
  end.

(** The kernel maps the memory of a new library naturally aligned and apart
    from the memory of every library that exists at that moment. *)
Definition step_ok (c : cfg) (st : gstate) (op : event) (p : pc) : Prop :=
  match op, p with
  | EvCreate shm bits, PStart =>
    (cbits c < bits)%nat /\ (bits <= 62)%nat /\ 0 < shm /\ (2 ^ Z.of_nat bits | shm) /\
    shm + 2 ^ Z.of_nat bits < W /\
    (forall i b, nth_error (g_box st) i = Some b -> b_live b = true ->
       b_shm b + region_size b <= shm \/ shm + 2 ^ Z.of_nat bits <= b_shm b)
  | _, _ => True
  end.

(** Executions from shared data [st0] with all threads idle: in any order,
    threads call (when [ok] allows it), take a step, or return.  [h0] is who
    holds which byte at the start.  The indices are what was observed, who
    holds what, what is stored for the host's slabs, and the state reached. *)
Inductive execution (c : cfg) (ok : cstate -> (Z -> who) -> nat -> event -> Prop)
  (h0 : Z -> who) (st0 : gstate) :
  list label -> (Z -> who) -> (Z -> option (Z * Z)) -> cstate -> Prop :=
| X_start : execution c ok h0 st0 [] h0 (fun _ => None) (idle_state st0)
| X_call ls h m cs t op :
    execution c ok h0 st0 ls h m cs -> c_thr cs t = None -> ok cs h t op ->
    execution c ok h0 st0 (ls ++ [LCall t op])
              (hold_after (c_mem cs) h (LCall t op)) (slab_after (c_mem cs) m (LCall t op))
              (CState (c_mem cs) (set_thr (c_thr cs) t (Some (op, PStart))))
| X_step ls h m cs t op p st' p' :
    execution c ok h0 st0 ls h m cs -> c_thr cs t = Some (op, p) ->
    (forall r, p <> PDone r) -> step_ok c (c_mem cs) op p ->
    tstep c (c_mem cs) op p = (st', p') ->
    execution c ok h0 st0 ls h m (CState st' (set_thr (c_thr cs) t (Some (op, p'))))
| X_ret ls h m cs t op r :
    execution c ok h0 st0 ls h m cs -> c_thr cs t = Some (op, PDone r) ->
    execution c ok h0 st0 (ls ++ [LRet t op r])
              (hold_after (c_mem cs) h (LRet t op r)) (slab_after (c_mem cs) m (LRet t op r))
              (CState (c_mem cs) (set_thr (c_thr cs) t None)).

(** No operation in progress. *)
Definition quiescent (cs : cstate) : Prop := forall t, c_thr cs t = None.

(** The same shared data: same free blocks, same entry for every chunk. *)
Definition same_memory (st st' : gstate) : Prop :=
  g_box st = g_box st' /\ forall x, g_pm st x = g_pm st' x.

(** An allocation of [size] bytes, by a sandbox or by the host. *)
Definition allocates (op : event) (size : Z) : Prop :=
  match op with
  | EvReq _ rq => rq_kind rq = 0 /\ rq_0 rq = size
  | EvHostAlloc _ n _ _ => n = size
  | _ => False
  end.
