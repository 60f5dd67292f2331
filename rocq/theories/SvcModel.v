(** Model of the host's memory service thread: MemoryServiceProvider::run and
    add_range (src/libsandbox.cc 109-285), over the poller (PollModel) and the
    requests themselves (MemSvcModel.service), interleaved with the host's other
    threads and any number of sandboxes.  No proofs in this file. *)
From Coq Require Import List ZArith Bool.
From Verif Require Import Base RegionModel BuddyModel MemSvcModel PollModel.
Import ListNotations.
Open Scope Z_scope.

(** What a sandbox may put on its socket: a packet at least as long as a request
    (its first bytes are the request: socketpair_posix.h 105-121, SockModel), or
    a shorter one, or a shutdown of its sending side (which reads as length 0). *)
Inductive packet := Req (rq : request) | Bad.

(** Where the service thread is: in poll; between poll's return and the use of
    its result; the process has exited (err(1), 257); it has followed the
    pointer to a destroyed Library. *)
Inductive pc := Idle | Picked (fd : Z) (eof : bool) | Exited | Fault (i : nat).

Record st := St {
  kn : kern packet;                    (* sockets and poller *)
  ranges : list (Z * nat);             (* the map, 101-104: descriptor -> Library *)
  th : pc;
  mem : gstate }.                      (* pagemap and the Libraries' allocators *)
Definition init : st := St (PollModel.init) [] Idle init_state.

(** What others can see: a reply put on sandbox [j]'s socket to the request
    [rq] of sandbox [i]; Library::terminate on [i]; the abort of
    DefaultPal::error. *)
Inductive out := Reply (j : nat) (i : nat) (rq : request) (rs : response)
               | Unsent (i : nat) (rq : request) (rs : response)
               | Kill (i : nat) | Abort.

(** remove_fd, 115-122.  Erasing the entry destroys the Socket, which closes
    the descriptor. *)
Definition remove_fd (fd : Z) (s : st) : st :=
  match find fd (ranges s) with
  | Some _ => St (k_close fd (kn s)) (del fd (ranges s)) (th s) (mem s)
  | None => s
  end.

(** add_range, 276-284 (one critical section), called from the constructor of
    Library number [i] (865-890) with a new socket; the constructor's allocator
    set-up is MemSvcModel.new_box.  When the key is present emplace changes
    nothing and the socket, moved into the discarded node, is closed. *)
Definition create (c : cfg) (kq : bool) (shm : Z) (bits : nat) (fd : Z) (s : st) : st * list out :=
  let i := length (g_box (mem s)) in
  let m := fst (MemSvcModel.step c (mem s) (EvCreate shm bits)) in
  let k := k_open fd i (kn s) in
  let (k, ok) := add kq fd k in
  if ok then
    match find fd (ranges s) with
    | None => (St k ((fd, i) :: ranges s) (th s) m, [])
    | Some _ => (St (k_close fd k) (ranges s) (th s) m, [])
    end
  else (St k (ranges s) (th s) m, [Abort]).

(** The loop head, 113: poll. *)
Definition do_poll (kq : bool) (l : list answer) (s : st) : st :=
  match th s with
  | Idle =>
    match poll kq l (kn s) with
    | (k, None) => St k (ranges s) Idle (mem s)
    | (k, Some PFalse) => St k (ranges s) Exited (mem s)           (* 257 *)
    | (k, Some (PTrue fd eof)) => St k (ranges s) (Picked fd eof) (mem s)
    end
  | _ => s
  end.

(** The loop body, 115-255.  [sent] tells whether the non-blocking send finds
    room.  Simplification: the body runs as one step; what the host's other
    threads do to this sandbox's memory meanwhile is ordered before or after it. *)
Definition serve (c : cfg) (sent : bool) (s : st) : st * list out :=
  match th s with
  | Picked fd eof =>
    let s := St (kn s) (ranges s) Idle (mem s) in
    if eof then (remove_fd fd s, [])                                (* 125-129 *)
    else
      match find fd (ranges s) with
      | None => (s, [])                                             (* 135-138 *)
      | Some i =>
        match nth_error (g_box (mem s)) i with
        | None => (St (kn s) (ranges s) (Fault i) (mem s), [])
        | Some b =>
          if negb (b_live b) then (St (kn s) (ranges s) (Fault i) (mem s), [])   (* 142-143 *)
          else
            match k_take fd (kn s) with
            | (k, Some (Req rq)) =>
              let (m, rs) := MemSvcModel.step c (mem s) (EvReq i rq) in
              let s' := St k (ranges s) Idle m in
              if sent then
                match find fd (socks k) with
                | Some so => (s', [Reply (owner so) i rq rs])
                | None => (s', [])
                end
              else (remove_fd fd s', [Unsent i rq rs; Kill i])      (* 250-254 *)
            | (k, _) => (remove_fd fd (St k (ranges s) Idle (mem s)), [Kill i])  (* 145-150 *)
            end
        end
      end
  | _ => (s, [])
  end.

(** ** Histories *)
Inductive op :=
| Create (shm : Z) (bits : nat) (fd : Z)      (* a host thread constructs a Library *)
| HostMem (i : nat) (size ras mp : Z)          (* a host thread takes a chunk of i's memory *)
| HostFree (i : nat) (a size : Z)
| Destroy (i : nat)                            (* a host thread destroys a Library *)
| Send (i : nat) (p : packet)                  (* sandbox i sends *)
| Hang (i : nat)                               (* its end of the socket is closed for good *)
| Poll (l : list answer)
| Serve (sent : bool).

(** The kernel's side of what sandbox [i] does with its end of its socket; the
    host's end may be closed already. *)
Definition at_end (i : nat) (f : sock packet -> sock packet) (k : kern packet) : kern packet :=
  Kern (map (fun x => if Nat.eqb (owner (snd x)) i then (fst x, f (snd x)) else x) (socks k)) (reg k).

Definition step (c : cfg) (kq : bool) (o : op) (s : st) : st * list out :=
  match o with
  | Create shm bits fd => create c kq shm bits fd s
  | HostMem i size ras mp => (St (kn s) (ranges s) (th s) (fst (MemSvcModel.step c (mem s) (EvHostAlloc i size ras mp))), [])
  | HostFree i a size => (St (kn s) (ranges s) (th s) (fst (MemSvcModel.step c (mem s) (EvHostFree i a size))), [])
  | Destroy i => (St (kn s) (ranges s) (th s) (fst (MemSvcModel.step c (mem s) (EvDestroy i))), [])
  | Send i p => (St (at_end i (fun so => if hup so then so else Sock (owner so) (inq so ++ [p]) false) (kn s)) (ranges s) (th s) (mem s), [])
  | Hang i => (St (at_end i (fun so => Sock (owner so) (inq so) true) (kn s)) (ranges s) (th s) (mem s), [])
  | Poll l => (do_poll kq l s, [])
  | Serve sent => serve c sent s
  end.

(** No socket of sandbox [i] is open at the far end. *)
Definition gone (i : nat) (s : st) : Prop :=
  forall fd so, find fd (socks (kn s)) = Some so -> owner so = i -> hup so = true.
(** What the system allows: a new descriptor has a number not in use; poll
    answers come from the kernel; a send to a closed end fails; a Library is
    destroyed only after its process has exited (~Library, 757-759), which closes
    the sandbox's end of the socket unless the host itself still holds a copy of
    it ([leak], which C51 shows it does with vfork). *)
Definition possible (leak : bool) (o : op) (s : st) : Prop :=
  match o with
  | Create _ _ fd => find fd (socks (kn s)) = None
  | Destroy i => leak = true \/ gone i s
  | Send i _ | Hang i => (i < length (g_box (mem s)))%nat      (* a sandbox that exists *)
  | Poll l => th s = Idle /\ Forall (answer_ok (kn s)) l
  | Serve sent => (exists fd eof, th s = Picked fd eof /\
                     (sent = true -> forall so, find fd (socks (kn s)) = Some so -> hup so = false))
  | _ => True
  end.
Inductive runs (c : cfg) (kq leak : bool) : list (op * list out) -> st -> Prop :=
| runs_0 : runs c kq leak [] init
| runs_snoc tr s o s' x : runs c kq leak tr s -> possible leak o s -> step c kq o s = (s', x) ->
    runs c kq leak (tr ++ [(o, x)]) s'.
