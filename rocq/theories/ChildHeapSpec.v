(** Vocabulary for the sandbox's memory: who holds which block. *)
From Coq Require Import List ZArith Bool Arith.
From Verif Require Import Base MemSvcModel MemSvcSpec ChildHeapModel.
Import ListNotations.
Open Scope Z_scope.

Definition history := list (op * list out).

(** A block given to the program, with the two words it wanted recorded for it. *)
Record grant := Grant { g_at : Z; g_size : Z; g_meta : Z; g_ras : Z }.
(** Blocks the program holds: those given to it and not yet offered back. *)
Definition drop (a n : Z) (l : list grant) : list grant :=
  filter (fun g => negb ((g_at g =? a) && (g_size g =? n))) l.
Definition hold_out (l : list grant) (x : out) : list grant :=
  match x with
  | Returned _ rq v => if rq_kind rq =? 0 then Grant v (rq_0 rq) (rq_1 rq) (rq_2 rq) :: l else l
  | GaveUp _ _ => l
  end.
Definition hold (l : list grant) (e : op * list out) : list grant :=
  let l := match fst e with
           | Enter _ rq => if rq_kind rq =? 1 then drop (rq_0 rq) (rq_1 rq) l else l
           | _ => l
           end in
  fold_left hold_out (snd e) l.
Definition held (h : history) : list grant := fold_left hold h [].

(** A program that uses its allocator sensibly asks for chunk sizes with
    metadata the host accepts, and returns only what it holds. *)
Definition sensible (c : cfg) (i : nat) (bk : book) (l : list grant) (rq : request) : Prop :=
  (exists size ms ras r, rq = req_alloc size ms ras /\ request_words rq /\ chunk_size c size /\
     nth_error (regions bk) i = Some r /\ metadata_ok c r size ras) \/
  (exists g, In g l /\ rq = req_free (g_at g) (g_size g)).

(** The rest of the host process behaves (MemSvcSpec), and does not speak for
    this sandbox or destroy it while it runs. *)
Definition possible (c : cfg) (i : nat) (h : history) (o : op) (s : st) : Prop :=
  enabled o s /\
  match o with
  | Enter _ rq => sensible c i (books (tr s)) (held h) rq
  | Env ev => polite_ok c (books (tr s)) ev /\ (forall rq, ev <> EvReq i rq) /\ ev <> EvDestroy i
  | _ => True
  end.

Inductive runs (c : cfg) (i : nat) (evs : list event) : history -> st -> Prop :=
| runs_0 : runs c i evs [] (start c evs)
| runs_S h s o s' x : runs c i evs h s -> possible c i h o s -> step c i o s = (s', x) ->
    runs c i evs (h ++ [(o, x)]) s'.

(** The sandbox exists at the start. *)
Definition begins (c : cfg) (i : nat) (evs : list event) : Prop :=
  cfg_ok c /\ polite_history c evs /\
  exists r, nth_error (regions (books (snd (run c init_state evs)))) i = Some r /\ r_live r = true.

(** Calls made and calls ended, per thread: with a result, or an exception. *)
Definition entered (t : nat) (h : history) : list request :=
  flat_map (fun e => match fst e with Enter u rq => if Nat.eqb u t then [rq] else [] | _ => [] end) h.
Definition results (h : history) : list (nat * request * Z) :=
  flat_map (fun e => flat_map (fun x => match x with Returned t rq v => [(t, rq, v)] | GaveUp _ _ => [] end) (snd e)) h.
Definition ended_call (t : nat) (x : out) : list (request * option Z) :=
  match x with
  | Returned u rq v => if Nat.eqb u t then [(rq, Some v)] else []
  | GaveUp u rq => if Nat.eqb u t then [(rq, None)] else []
  end.
Definition ended (t : nat) (h : history) : list (request * option Z) :=
  flat_map (fun e => flat_map (ended_call t) (snd e)) h.
(** The requests whose reply was read, or whose reading was given up, in order. *)
Definition taken1 (e : op * list out) : list request :=
  match fst e with
  | Read _ _ | ReadThrown _ => map (fun x => match x with Returned _ rq _ => rq | GaveUp _ rq => rq end) (snd e)
  | _ => []
  end.
Definition taken (h : history) : list request := flat_map taken1 h.
(** What the host did for sandbox [i], after the first [n] entries of its books. *)
Definition served (i : nat) (n : nat) (t : list (event * response)) : list (request * response) :=
  flat_map (fun x => match fst x with EvReq j rq => if Nat.eqb j i then [(rq, snd x)] else [] | _ => [] end) (skipn n t).

(** A read or write of the sandbox failed. *)
Definition call_failed (h : history) : Prop :=
  exists t x, In (Write t false, x) h \/ In (Read t false, x) h.
(** No reply was left unread by a failed read that the program survived. *)
Definition kept (h : history) : Prop := forall t x, ~ In (ReadThrown t, x) h.
Definition separate (g k : grant) : Prop := g_at g + g_size g <= g_at k \/ g_at k + g_size k <= g_at g.
(** No aligned place for [size] bytes is free in the region. *)
Definition exhausted (c : cfg) (r : region) (bk : book) (size : Z) : Prop :=
  forall a, (size | a) -> r_start r + chunk c <= a -> a + size <= r_end r ->
  exists x, a <= x < a + size /\ owner bk x <> Nobody.
(** A step of the sandbox's own threads or of the service in which no system
    call goes wrong, and which starts no new call. *)
Definition progress (o : op) : Prop :=
  match o with Lock _ | Write _ true | Read _ true | Serve => True | _ => False end.
