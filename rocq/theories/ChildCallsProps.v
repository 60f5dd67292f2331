(** Claimed theorems about the child's callbacks (C24, C25, C45). *)
From Coq Require Import String Ascii List ZArith Lia Bool.
From Verif Require Import Base PathModel PathSpec PathProof FileTreeModel FileTreeSpec FileTreeProof FileTreeProps
  RegionModel RegionSpec RegionProof DispatchModel DispatchProps HostCallsModel HostCallsProof
  ChildCallsModel ChildCallsSpec ChildCallsProof.
Import ListNotations.
Open Scope Z_scope.

(** What the program gets for a host reply: a received descriptor wins,
    otherwise the reply as an int. *)
Definition reply_int (r : hostreply) : Z :=
  match hr_fd r with Some f => f | None => int_of (hr_word r) end.

(** The result of a call for which the host is asked [rq], with descriptor
    [fd], while memory is [m']: [finish] is how memory looks to the program
    afterwards. *)
Definition asks (o : host -> outcome (cst * Z)) (rq : crequest) (fd : option Z) (m' : cmem)
  (finish : cmem -> cmem -> Prop) : Prop :=
  forall H, match H rq fd m' with
  | None => o H = Aborts
  | Some r => exists st', o H = Ret (st', reply_int r) /\
      finish (after_stores m' (hr_stores r)) (cs_mem st')
  end.

Lemma reply_int_value r : reply_value (wrap (hr_word r), hr_fd r) = reply_int r.
Proof. unfold reply_value, reply_int. cbn [fst snd]. rewrite int_of_wrap. reflexivity. Qed.

Section P.
Variables (shm size hdr : Z) (alloc : list (Z * Z) -> Z -> Z) (fuel : nat) (maxn : Z).

Local Notation hb := (heap_block shm size hdr).
Local Notation "'CH' f" := (f shm (shm + size) alloc fuel) (at level 10, f at level 9).

Lemma same_of_read m p m' p' n : read_bytes m p (Z.to_nat n) = read_bytes m' p' (Z.to_nat n) ->
  same_bytes m p m' p' n.
Proof.
  intros E i Hi.
  assert (X : nth_error (read_bytes m p (Z.to_nat n)) (Z.to_nat i) = nth_error (read_bytes m' p' (Z.to_nat n)) (Z.to_nat i)) by congruence.
  rewrite !read_bytes_nth in X by lia. injection X as X. rewrite Z2Nat.id in X by lia. exact X.
Qed.

Lemma cstring_same m p m' p' s : same_bytes m' p' m p (Z.of_nat (S (List.length s))) ->
  cstring_at m p s -> cstring_at m' p' s.
Proof.
  intros E [A B]. split.
  - intros i c H. assert (L : (i < List.length s)%nat) by (apply nth_error_Some; congruence).
    rewrite E by lia. apply A. exact H.
  - rewrite E by lia. exact B.
Qed.

Lemma asks_helper st sp kind args fd st' q n bk :
  prepare shm (shm + size) alloc fuel st sp args = Ret (st', q, n, bk) ->
  forall H, match H (CRequest kind n q) (if 0 <=? fd then Some fd else None) (cs_mem st') with
  | None => syscall_callback_helper shm (shm + size) alloc fuel H st sp kind args fd = Aborts
  | Some r => syscall_callback_helper shm (shm + size) alloc fuel H st sp kind args fd
      = Ret (CSt (copy_back (after_stores (cs_mem st') (hr_stores r)) bk) (cs_blocks st'), reply_int r)
  end.
Proof.
  intros E H. unfold syscall_callback_helper, callback_helper. rewrite E. cbn [obind].
  unfold callback. destruct (H _ _ _) as [r|]; [|reflexivity]. cbn [obind cs_mem cs_blocks].
  unfold reply_value, reply_int. cbn [fst snd]. rewrite int_of_wrap, apply_stores_after. reflexivity.
Qed.

Lemma ready_string st sp p s : program_string st maxn fuel sp p s ->
  arg_ok fuel maxn (cs_blocks st) (cs_mem st) (CStr p) (Some (p, Z.of_nat (S (List.length s)))) 8.
Proof. intros (A & (B & C & D) & E). constructor; auto. Qed.


Ltac args_ok := repeat match goal with
  | |- Forall2 _ [] _ => constructor
  | |- Forall2 _ (_ :: _) _ => cbn [combine]; constructor
  | |- arg_ok _ _ _ _ _ _ _ => cbn [fst snd]; first [eapply ready_string; eassumption | constructor; assumption | constructor]
  end.
Ltac split_all := repeat match goal with
  | F : Forall2 _ (combine _ _) _ |- _ => cbn [combine] in F
  | F : Forall2 _ (_ :: _) _ |- _ => inversion F; subst; clear F
  | F : Forall2 _ [] _ |- _ => inversion F; subst; clear F
  | F : backs _ (_ :: _) _ _ |- _ => inversion F; subst; clear F
  | F : backs _ [] _ _ |- _ => inversion F; subst; clear F
  end.
Ltac widths D :=
  cbn [map] in D; change (Z.of_nat 8) with 8 in D; change (Z.of_nat 4) with 4 in D;
  change (256 ^ 8) with W in D; change (256 ^ 4) with (2 ^ 32) in D.
Ltac words D := repeat match type of D with
  | context [?a mod W] => rewrite (Z.mod_small a W) in D by (unfold heap_block, mapping_ok in *; lia)
  end.

Lemma asks_of st sp kind args fd st' q n bk (fin : cmem -> cmem -> Prop) o fdo :
  prepare shm (shm + size) alloc fuel st sp args = Ret (st', q, n, bk) ->
  fdo = (if 0 <=? fd then Some fd else None) ->
  (forall H, o H = syscall_callback_helper shm (shm + size) alloc fuel H st sp kind args fd) ->
  (forall h, fin h (copy_back h bk)) ->
  asks o (CRequest kind n q) fdo (cs_mem st') fin.
Proof.
  intros E -> O F H. pose proof (asks_helper st sp kind args fd st' q n bk E H) as A. rewrite O.
  destruct (H _ _ _) as [r|]; [|exact A]. eexists. split; [exact A|]. apply F.
Qed.

(** C45: open.  The host is asked once, without a descriptor, about the
    program's own string and arguments. *)
Theorem child_open_request : forall st sp p s flags mode,
  child_ready shm size hdr alloc maxn st sp -> program_string st maxn fuel sp p s ->
  0 <= mode < 2 ^ 32 ->
  exists m' q a, hb q 16 /\ hb a (Z.of_nat (S (List.length s))) /\
    numbers_at m' q [(8, a); (4, flags mod 2 ^ 32); (4, mode)] /\
    cstring_at m' a s /\
    asks (fun H => callback_open shm (shm + size) alloc fuel H sp st p flags mode)
      (CRequest 0 16 q) None m' (fun h m => m = h).
Proof.
  intros st sp p s flags mode (MO & T & MS & SP & MX) PS Hm.
  destruct (prepare_ok 8 shm size hdr alloc fuel maxn (cs_blocks st) MO T MS
     [CStr p; CInt flags; CUInt mode] [Some (p, Z.of_nat (S (List.length s))); None; None] [8; 4; 4]%nat st sp)
    as (st' & q & fs & bk & E & Q & Qd & MF & D & _ & _ & F & BK); auto; try (cbn; lia).
  { args_ok. }
  { intros p0 n0 [X|[X|[X|[]]]]; try discriminate. injection X as <- <-. destruct PS as (_ & (_ & _ & N) & _). congruence. }
  split_all. cbn [sent fst snd back_of] in *. subst. destruct y as [w a]. cbn [fst snd] in *.
  destruct H1 as [-> (C1 & _ & _ & C4)].
  exists (cs_mem st'), q, a. split; [exact Q|]. split; [exact C1|]. split.
  { widths D. words D. rewrite (Z.mod_small mode) in D by lia. exact (proj2 (proj1 (numbers_of_bytes _ _ _ _) D)). }
  split.
  { apply (cstring_same (cs_mem st) p); [apply same_of_read; exact C4|]. apply PS. }
  eapply asks_of with (fd := -1); [exact E|reflexivity|reflexivity|]. reflexivity.
Qed.

(** C45: access. *)
Theorem child_access_request : forall st sp p s mode,
  child_ready shm size hdr alloc maxn st sp -> program_string st maxn fuel sp p s ->
  exists m' q a, hb q 12 /\ hb a (Z.of_nat (S (List.length s))) /\
    numbers_at m' q [(8, a); (4, mode mod 2 ^ 32)] /\
    cstring_at m' a s /\
    asks (fun H => callback_access shm (shm + size) alloc fuel H sp st p mode)
      (CRequest 2 12 q) None m' (fun h m => m = h).
Proof.
  intros st sp p s mode (MO & T & MS & SP & MX) PS.
  destruct (prepare_ok 8 shm size hdr alloc fuel maxn (cs_blocks st) MO T MS
     [CStr p; CInt mode] [Some (p, Z.of_nat (S (List.length s))); None] [8; 4]%nat st sp)
    as (st' & q & fs & bk & E & Q & Qd & MF & D & _ & _ & F & BK); auto; try (cbn; lia).
  { args_ok. }
  { intros p0 n0 [X|[X|[]]]; try discriminate. injection X as <- <-. destruct PS as (_ & (_ & _ & N) & _). congruence. }
  split_all. cbn [sent fst snd back_of] in *. subst. destruct y as [w a]. cbn [fst snd] in *.
  destruct H1 as [-> (C1 & _ & _ & C4)].
  exists (cs_mem st'), q, a. split; [exact Q|]. split; [exact C1|]. split.
  { widths D. words D. exact (proj2 (proj1 (numbers_of_bytes _ _ _ _) D)). }
  split.
  { apply (cstring_same (cs_mem st) p); [apply same_of_read; exact C4|]. apply PS. }
  eapply asks_of with (fd := -1); [exact E|reflexivity|reflexivity|]. reflexivity.
Qed.

(** C45: stat.  The host is given a buffer [b] in the shared heap; what it
    leaves there is what the program finds in its own buffer, and nothing else
    of what the host left in memory is changed. *)
Theorem child_stat_request : forall st sp p s buf,
  child_ready shm size hdr alloc maxn st sp -> program_string st maxn fuel sp p s ->
  program_block st maxn sp buf 144 ->
  exists m' q a b, hb q 16 /\ hb a (Z.of_nat (S (List.length s))) /\ hb b 144 /\
    numbers_at m' q [(8, a); (8, b)] /\
    cstring_at m' a s /\ same_bytes m' b (cs_mem st) buf 144 /\
    asks (fun H => callback_stat shm (shm + size) alloc fuel H sp st p buf)
      (CRequest 1 16 q) None m'
      (fun h m => same_bytes m buf h b 144 /\ forall x, ~ buf <= x < buf + 144 -> m x = h x).
Proof.
  intros st sp p s buf (MO & T & MS & SP & MX) PS (PB1 & PB2 & PB3).
  destruct (prepare_ok 8 shm size hdr alloc fuel maxn (cs_blocks st) MO T MS
     [CStr p; CPtr buf 144 true] [Some (p, Z.of_nat (S (List.length s))); Some (buf, 144)] [8; 8]%nat st sp)
    as (st' & q & fs & bk & E & Q & Qd & MF & D & _ & _ & F & BK); auto; try (cbn; lia).
  { args_ok. }
  { intros p0 n0 [X|[X|[]]]; try discriminate; injection X as <- <-; [|congruence].
    destruct PS as (_ & (_ & _ & N) & _). congruence. }
  split_all. cbn [sent fst snd back_of] in *. subst. destruct y as [w a], y0 as [w' b]. cbn [fst snd] in *.
  destruct H1 as [-> (C1 & _ & _ & C4)]. destruct H2 as [-> (B1 & _ & Bd & B4)].
  exists (cs_mem st'), q, a, b. split; [exact Q|]. split; [exact C1|]. split; [exact B1|]. split.
  { widths D. words D. exact (proj2 (proj1 (numbers_of_bytes _ _ _ _) D)). }
  split.
  { apply (cstring_same (cs_mem st) p); [apply same_of_read; exact C4|]. apply PS. }
  split; [apply same_of_read; exact B4|].
  eapply asks_of with (fd := -1); [exact E|reflexivity|reflexivity|]. intros h. cbn [app].
  match goal with X : _ \/ _ |- _ => destruct X as [[-> ->]|[-> Dj]] end.
  - cbn [app copy_back fold_left]. split; [intros i Hi; reflexivity|reflexivity].
  - cbn [app copy_back fold_left]. change (Z.to_nat 144) with 144%nat. split.
    + intros i Hi. replace (buf + i) with (buf + Z.of_nat (Z.to_nat i)) by lia.
      apply write_bytes_in. rewrite read_bytes_nth by lia. do 2 f_equal. lia.
    + intros x Hx. apply write_bytes_out. rewrite read_bytes_length. lia.
Qed.

(** C45: openat of a relative path: the directory descriptor travels with the
    request.  [proc] is "/proc/<pid>/fd/". *)
Theorem child_openat_request : forall st sp p s proc dup dirfd flags mode,
  child_ready shm size hdr alloc maxn st sp -> program_string st maxn fuel sp p s ->
  (exists r, proc = slash :: r) -> hd_error s <> Some slash -> 0 <= mode < 2 ^ 32 ->
  exists m' q a, hb q 20 /\ hb a (Z.of_nat (S (List.length s))) /\
    numbers_at m' q [(4, dirfd mod 2 ^ 32); (8, a); (4, flags mod 2 ^ 32); (4, mode)] /\
    cstring_at m' a s /\
    asks (fun H => callback_openat shm (shm + size) alloc fuel H proc dup sp st dirfd p flags mode)
      (CRequest 3 20 q) (if 0 <=? dirfd then Some dirfd else None) m' (fun h m => m = h).
Proof.
  intros st sp p s proc dup dirfd flags mode (MO & T & MS & SP & MX) PS [pr ->] NS Hm.
  destruct (prepare_ok 8 shm size hdr alloc fuel maxn (cs_blocks st) MO T MS
     [CInt dirfd; CStr p; CInt flags; CUInt mode] [None; Some (p, Z.of_nat (S (List.length s))); None; None] [4; 8; 4; 4]%nat st sp)
    as (st' & q & fs & bk & E & Q & Qd & MF & D & _ & _ & F & BK); auto; try (cbn; lia).
  { args_ok. }
  { intros p0 n0 [X|[X|[X|[X|[]]]]]; try discriminate. injection X as <- <-. destruct PS as (_ & (_ & _ & N) & _). congruence. }
  split_all. cbn [sent fst snd back_of] in *. subst. destruct y0 as [w a]. cbn [fst snd] in *.
  destruct H2 as [-> (C1 & _ & _ & C4)].
  exists (cs_mem st'), q, a. split; [exact Q|]. split; [exact C1|]. split.
  { widths D. words D. rewrite (Z.mod_small mode) in D by lia. exact (proj2 (proj1 (numbers_of_bytes _ _ _ _) D)). }
  split.
  { apply (cstring_same (cs_mem st) p); [apply same_of_read; exact C4|]. apply PS. }
  eapply asks_of with (fd := dirfd); [exact E|reflexivity| |reflexivity]. intros H. unfold callback_openat.
  destruct PS as (CS & (PB & _) & FL). destruct (proj1 T _ _ PB) as (Pp & _).
  replace (p =? 0) with false by lia. rewrite (strlen_cstring _ _ _ _ CS FL).
  assert (RB : read_bytes (cs_mem st) p (List.length s) = s).
  { apply nth_error_ext. intros i. destruct (Nat.lt_ge_cases i (List.length s)) as [L|L].
    - rewrite read_bytes_nth by exact L. destruct (nth_error s i) as [c|] eqn:Ei; [|apply nth_error_None in Ei; lia].
      f_equal. apply CS. exact Ei.
    - rewrite (proj2 (nth_error_None s i)) by lia. apply nth_error_None. rewrite read_bytes_length. lia. }
  rewrite RB. unfold own_descriptor.
  assert (SN : strip_prefix (slash :: pr) s = None).
  { destruct s as [|c r]; [reflexivity|]. cbn [strip_prefix]. destruct (ascii_dec slash c) as [<-|]; [|reflexivity].
    exfalso. apply NS. reflexivity. }
  rewrite SN. destruct (ascii_dec (cs_mem st p) slash) as [X|_]; [|reflexivity]. exfalso.
  destruct s as [|c r].
  - destruct CS as [_ CS]. cbn in CS. rewrite Z.add_0_r, X in CS. discriminate.
  - destruct CS as [CS _]. destruct (CS 0%nat c eq_refl) as [CS' _]. cbn in CS'. rewrite Z.add_0_r, X in CS'.
    apply NS. cbn. congruence.
Qed.

(** C45: openat of an absolute path is open, unless it names one of the
    process's own descriptors. *)
Theorem child_openat_absolute : forall st sp p s proc dup dirfd flags mode H,
  child_ready shm size hdr alloc maxn st sp -> program_string st maxn fuel sp p (slash :: s) ->
  ~ own_name proc (slash :: s) ->
  callback_openat shm (shm + size) alloc fuel H proc dup sp st dirfd p flags mode
  = callback_open shm (shm + size) alloc fuel H sp st p flags mode.
Proof.
  intros st sp p s proc dup dirfd flags mode H (MO & T & MS & SP & MX) (CS & (PB & _) & FL) NP.
  unfold callback_openat. destruct (proj1 T _ _ PB) as (Pp & _).
  replace (p =? 0) with false by lia. rewrite (strlen_cstring _ _ _ _ CS FL).
  apply cstring_read in CS as [CR CN].
  assert (RB : read_bytes (cs_mem st) p (List.length (slash :: s)) = slash :: s).
  { apply nth_error_ext. intros i.
    assert (X : nth_error (read_bytes (cs_mem st) p (S (List.length (slash :: s)))) i = nth_error ((slash :: s) ++ [nul]) i) by congruence.
    destruct (Nat.lt_ge_cases i (List.length (slash :: s))) as [L|L].
    - rewrite read_bytes_nth in * by lia. rewrite X. apply nth_error_app1. exact L.
    - rewrite (proj2 (nth_error_None (slash :: s) i)) by lia. apply nth_error_None. rewrite read_bytes_length. lia. }
  rewrite RB.
  assert (SN : own_descriptor proc (slash :: s) = None).
  { destruct (own_descriptor proc (slash :: s)) eqn:X; [|reflexivity]. exfalso. apply NP.
    apply own_descriptor_iff. congruence. }
  rewrite SN. destruct (ascii_dec (cs_mem st p) slash) as [_|X]; [reflexivity|]. exfalso. apply X.
  cbn in CR. rewrite Z.add_0_r in CR. congruence.
Qed.

(** C45: openat of such a name never asks the host. *)
Theorem child_openat_own_asks_nothing : forall st sp p s proc dup dirfd flags mode H H',
  child_ready shm size hdr alloc maxn st sp -> program_string st maxn fuel sp p s ->
  own_name proc s ->
  callback_openat shm (shm + size) alloc fuel H proc dup sp st dirfd p flags mode
  = callback_openat shm (shm + size) alloc fuel H' proc dup sp st dirfd p flags mode.
Proof.
  intros st sp p s proc dup dirfd flags mode H H' (MO & T & MS & SP & MX) (CS & (PB & _) & FL) NP.
  unfold callback_openat. destruct (p =? 0); [reflexivity|].
  rewrite (strlen_cstring _ _ _ _ CS FL). apply cstring_read in CS as [CR CN].
  assert (RB : read_bytes (cs_mem st) p (List.length s) = s).
  { apply nth_error_ext. intros i.
    assert (X : nth_error (read_bytes (cs_mem st) p (S (List.length s))) i = nth_error (s ++ [nul]) i) by congruence.
    destruct (Nat.lt_ge_cases i (List.length s)) as [L|L].
    - rewrite read_bytes_nth in * by lia. rewrite X. apply nth_error_app1. exact L.
    - rewrite (proj2 (nth_error_None s i)) by lia. apply nth_error_None. rewrite read_bytes_length. lia. }
  rewrite RB. apply own_descriptor_iff in NP. destruct (own_descriptor proc s) as [fd|]; [reflexivity|congruence].
Qed.

(** C45: user callbacks.  The host gets the program's block (or an exact copy),
    under the number and with the descriptor the program gave. *)
Theorem child_user_callback_request : forall st sp idx data n fd,
  child_ready shm size hdr alloc maxn st sp -> program_block st maxn sp data n -> is_word idx ->
  exists m' q, hb q n /\ same_bytes m' q (cs_mem st) data n /\
    asks (fun H => invoke_user_callback shm (shm + size) alloc H st idx data n fd)
      (CRequest idx n q) (if 0 <=? fd then Some fd else None) m' (fun h m => m = h).
Proof.
  intros st sp idx data n fd (MO & T & MS & SP & MX) (PB & PM & PN) Wi.
  destruct (proj1 T _ _ PB) as (P1 & P2 & P3 & P4).
  assert (G0 : grown alloc maxn (cs_blocks st) 0 (cs_blocks st)) by constructor.
  unfold invoke_user_callback.
  assert (w : wrap (data + n) = data + n) by (apply wrap_small; unfold is_word; lia).
  assert (wi : wrap idx = idx) by (apply wrap_small; exact Wi).
  destruct (is_inside shm (shm + size) data n) eqn:I; cbn [negb].
  - exists (cs_mem st), data. split.
    { unfold is_inside in I. apply andb_prop in I as [I1 I2]. rewrite w in I2. unfold heap_block in *. lia. }
    split; [intros i Hi; reflexivity|]. intros H. cbn [obind]. unfold callback. rewrite wi.
    destruct (H _ _ _) as [r|]; cbn [obind]; [|reflexivity]. rewrite reply_int_value, apply_stores_after. eexists. split; reflexivity.
  - destruct (copy_in 8 shm size hdr alloc maxn (cs_blocks st) MO MS 0 st n data ltac:(lia) G0 ltac:(lia))
      as (N & C). cbv zeta in C. destruct C as (_ & _ & C3 & _ & C5).
    exists (write_bytes (cs_mem st) (alloc (cs_blocks st) n) (read_bytes (cs_mem st) data (Z.to_nat n))),
      (alloc (cs_blocks st) n).
    split; [exact C3|]. split; [apply same_of_read; exact C5|].
    intros H. unfold malloc. replace (alloc (cs_blocks st) n =? 0) with false by lia.
    replace (data =? 0) with false by lia. cbn [orb andb obind]. unfold callback, fill. rewrite wi. cbn [cs_mem cs_blocks].
    destruct (H _ _ _) as [r|]; cbn [obind]; [|reflexivity]. rewrite reply_int_value, apply_stores_after. eexists. split; reflexivity.
Qed.

(** C45: bind and connect with an address inside the shared heap (not touching
    its last byte): the host is given an exact copy. *)
Theorem child_connect_inside : forall st sp kind fd addr n,
  child_ready shm size hdr alloc maxn st sp -> program_block st maxn sp addr n ->
  hb addr n -> addr + n < shm + size -> n < 2 ^ 32 ->
  exists m' q a, hb q 16 /\ hb a n /\
    numbers_at m' q [(4, fd mod 2 ^ 32); (8, a); (4, n)] /\
    same_bytes m' a (cs_mem st) addr n /\
    asks (fun H => callback_bind_or_connect shm (shm + size) alloc fuel H kind sp st fd addr n)
      (CRequest kind 16 q) (if 0 <=? fd then Some fd else None) m' (fun h m => m = h).
Proof.
  intros st sp kind fd addr n (MO & T & MS & SP & MX) (PB & PM & PN) HB HE Hn.
  destruct (proj1 T _ _ PB) as (P1 & P2 & P3 & P4).
  assert (G0 : grown alloc maxn (cs_blocks st) 0 (cs_blocks st)) by constructor.
  destruct (copy_in 8 shm size hdr alloc maxn (cs_blocks st) MO MS 0 st n addr ltac:(lia) G0 ltac:(lia))
    as (N & C). cbv zeta in C. destruct C as (_ & K & C3 & C4 & C5).
  set (a := alloc (cs_blocks st) n) in *.
  set (st1 := CSt (write_bytes (cs_mem st) a (read_bytes (cs_mem st) addr (Z.to_nat n))) ((a, n) :: cs_blocks st)) in *.
  assert (MS1 : malloc_serves 7 shm size hdr alloc (cs_blocks st1) maxn).
  { intros k bs z Lk HG Hz. apply (MS (S k)); [lia| |exact Hz]. clear - HG PM P2.
    induction HG; [unfold st1; cbn [cs_blocks]; constructor; [constructor|lia]|constructor; auto]. }
  assert (T1 : tidy shm size hdr (cs_blocks st1)).
  { eapply (grown_tidy 8 shm size hdr alloc maxn (cs_blocks st) MO T MS 1); [lia|]. unfold st1. cbn [cs_blocks].
    constructor; [constructor|lia]. }
  unfold callback_bind_or_connect.
  assert (I : is_inside shm (shm + size) addr n = true).
  { unfold is_inside. rewrite wrap_small by (unfold is_word; lia). unfold heap_block, mapping_ok in *.
    apply andb_true_intro. lia. }
  rewrite I. unfold malloc. fold a. replace (a =? 0) with false by lia. cbn [andb obind].
  change (fill (CSt (cs_mem st) ((a, n) :: cs_blocks st)) a (read_bytes (cs_mem st) addr (Z.to_nat n))) with st1.
  destruct (prepare_ok 7 shm size hdr alloc fuel maxn (cs_blocks st1) MO T1 MS1
     [CInt fd; CWord a; CUInt n] [None; None; None] [4; 8; 4]%nat st1 sp)
    as (st' & q & fs & bk & E & Q & Qd & MF & D & _ & KP & F & BK); auto; try (cbn; lia).
  { args_ok. }
  { unfold st1. cbn [cs_blocks]. right. exact SP. }
  { intros p0 n0 [X|[X|[X|[]]]]; discriminate. }
  split_all. cbn [sent fst snd back_of] in *. subst.
  exists (cs_mem st'), q, a. split; [exact Q|]. split; [exact C3|]. split.
  { widths D. words D. rewrite (Z.mod_small n) in D by lia. exact (proj2 (proj1 (numbers_of_bytes _ _ _ _) D)). }
  split.
  { apply same_of_read. rewrite KP; [exact C5|left; reflexivity|].
    intros X. specialize (C4 _ SP). rewrite X in C4. unfold disjoint in C4. cbn in C4. lia. }
  eapply asks_of with (fd := fd); [exact E|reflexivity|reflexivity|reflexivity].
Qed.

(** C45 (limit): with an address outside the shared memory (a global or stack
    object of the library before the pivot) the raw pointer is sent. *)
Theorem child_connect_outside : forall st sp kind fd addr n,
  child_ready shm size hdr alloc maxn st sp -> 0 < addr -> 0 < n < 2 ^ 32 -> addr + n < W ->
  addr + n <= shm \/ shm + size <= addr ->
  exists m' q, hb q 16 /\
    numbers_at m' q [(4, fd mod 2 ^ 32); (8, addr); (4, n)] /\
    asks (fun H => callback_bind_or_connect shm (shm + size) alloc fuel H kind sp st fd addr n)
      (CRequest kind 16 q) (if 0 <=? fd then Some fd else None) m' (fun h m => m = h).
Proof.
  intros st sp kind fd addr n (MO & T & MS & SP & MX) P1 P2 P3 P4.
  unfold callback_bind_or_connect.
  assert (I : is_inside shm (shm + size) addr n = false).
  { unfold is_inside. rewrite wrap_small by (unfold is_word; lia). apply andb_false_iff. unfold mapping_ok in *. lia. }
  rewrite I. cbn [obind].
  destruct (prepare_ok 8 shm size hdr alloc fuel maxn (cs_blocks st) MO T MS
     [CInt fd; CWord addr; CUInt n] [None; None; None] [4; 8; 4]%nat st sp)
    as (st' & q & fs & bk & E & Q & Qd & MF & D & _ & _ & F & BK); auto; try (cbn; lia).
  { args_ok. }
  { intros p0 n0 [X|[X|[X|[]]]]; discriminate. }
  split_all. cbn [sent fst snd back_of] in *. subst.
  exists (cs_mem st'), q. split; [exact Q|]. split.
  { widths D. words D. rewrite (Z.mod_small n) in D by lia. exact (proj2 (proj1 (numbers_of_bytes _ _ _ _) D)). }
  eapply asks_of with (fd := fd); [exact E|reflexivity|reflexivity|reflexivity].
Qed.


(** C45: getaddrinfo.  Both strings, the hints and a slot for the result reach
    the host; what it leaves in the slot ends up in *res whatever the reply
    says (so *res is set, to the old contents of an uninitialised variable,
    even when the host stored nothing). *)
Theorem child_getaddrinfo_request : forall st sp local host hs service ss hints res,
  child_ready shm size hdr alloc maxn st sp ->
  program_string st maxn fuel sp host hs -> program_string st maxn fuel sp service ss ->
  program_block st maxn sp hints 48 -> program_block st maxn sp local 8 ->
  exists m' q a b c d, hb q 32 /\ hb a (Z.of_nat (S (List.length hs))) /\
    hb b (Z.of_nat (S (List.length ss))) /\ hb c 48 /\ hb d 8 /\
    numbers_at m' q [(8, a); (8, b); (8, c); (8, d)] /\
    cstring_at m' a hs /\ cstring_at m' b ss /\ same_bytes m' c (cs_mem st) hints 48 /\
    same_bytes m' d (cs_mem st) local 8 /\
    forall H, match H (CRequest 6 32 q) None m' with
    | None => posix_getaddrinfo shm (shm + size) alloc fuel H sp local st host service hints res = Aborts
    | Some r => exists st',
        posix_getaddrinfo shm (shm + size) alloc fuel H sp local st host service hints res
        = Ret (st', int_of (hr_word r)) /\
        same_bytes (cs_mem st') res (after_stores m' (hr_stores r)) d 8 /\
        forall x, (x < res \/ res + 8 <= x) -> (x < local \/ local + 8 <= x) ->
          cs_mem st' x = after_stores m' (hr_stores r) x
    end.
Proof.
  intros st sp local host hs service ss hints res (MO & T & MS & SP & MX) PS1 PS2 (H1 & H2 & H3) (L1 & L2 & L3).
  destruct (prepare_ok 8 shm size hdr alloc fuel maxn (cs_blocks st) MO T MS
     [CStr host; CStr service; CPtr hints 48 false; CPtr local 8 true]
     [Some (host, Z.of_nat (S (List.length hs))); Some (service, Z.of_nat (S (List.length ss))); Some (hints, 48); Some (local, 8)]
     [8; 8; 8; 8]%nat st sp)
    as (st' & q & fs & bk & E & Q & Qd & MF & D & _ & _ & F & BK); auto; try (cbn; lia).
  { args_ok. }
  { destruct PS1 as (_ & (_ & _ & N1) & _). destruct PS2 as (_ & (_ & _ & N2) & _).
    intros p0 n0 [X|[X|[X|[X|[]]]]]; injection X as <- <-; congruence. }
  split_all. cbn [sent fst snd back_of] in *. subst. 
  destruct y as [w1 a], y0 as [w2 b], y1 as [w3 c], y2 as [w4 d]. cbn [fst snd] in *.
  repeat match goal with X : _ = 8%nat /\ _ |- _ => destruct X as [-> X] end.
  repeat match goal with X : carried _ _ _ _ _ _ _ _ _ _ |- _ => destruct X as (? & _ & _ & ?) end.
  exists (cs_mem st'), q, a, b, c, d.
  do 5 (split; [assumption|]). split.
  { widths D. words D. exact (proj2 (proj1 (numbers_of_bytes _ _ _ _) D)). }
  split. { apply (cstring_same (cs_mem st) host); [apply same_of_read; assumption|]. apply PS1. }
  split. { apply (cstring_same (cs_mem st) service); [apply same_of_read; assumption|]. apply PS2. }
  split; [apply same_of_read; assumption|]. split; [apply same_of_read; assumption|].
  intros HH. unfold posix_getaddrinfo, callback_helper, sizeof_addrinfo, sizeof_ptr. rewrite E. cbn [obind].
  unfold callback. change (Z.of_nat (list_sum [8; 8; 8; 8]%nat)) with 32. change (0 <=? -1) with false. cbv iota.
  change K_GetAddrInfo with 6. destruct (HH _ _ _) as [r|]; [|reflexivity]. cbn [obind cs_mem cs_blocks fst].
  rewrite int_of_wrap, apply_stores_after. eexists. split; [reflexivity|]. cbn [cs_mem].
  split; [|intros x X1 X2; rewrite write_bytes_out by (rewrite read_bytes_length; lia);
    match goal with X : _ \/ _ /\ _ |- _ => destruct X as [[-> ->]|[-> Dj]] end; cbn [app copy_back fold_left]; [reflexivity|];
    apply write_bytes_out; rewrite read_bytes_length; lia].
  match goal with X : _ \/ _ |- _ => destruct X as [[-> ->]|[-> Dj]] end.
  - cbn [app copy_back fold_left]. intros i Hi. replace (res + i) with (res + Z.of_nat (Z.to_nat i)) by lia.
    apply write_bytes_in. rewrite read_bytes_nth by lia. do 2 f_equal. lia.
  - cbn [app copy_back fold_left]. intros i Hi. replace (res + i) with (res + Z.of_nat (Z.to_nat i)) by lia.
    apply write_bytes_in. rewrite read_bytes_nth by lia. f_equal.
    replace (d + i) with (d + Z.of_nat (Z.to_nat i)) by lia.
    apply write_bytes_in. rewrite read_bytes_nth by (change (Z.to_nat 8) with 8%nat; lia). reflexivity.
Qed.

(** C45 (limit): getaddrinfo with a null host name, service name or hints,
    which POSIX allows, is undefined behaviour in the child. *)
Theorem child_getaddrinfo_null_refuted : forall st sp local H host hs service ss hints res,
  child_ready shm size hdr alloc maxn st sp ->
  host = 0 \/
  (program_string st maxn fuel sp host hs /\ service = 0) \/
  (program_string st maxn fuel sp host hs /\ program_string st maxn fuel sp service ss /\ hints = 0) ->
  posix_getaddrinfo shm (shm + size) alloc fuel H sp local st host service hints res = UB.
Proof.
  intros st sp local H host hs service ss hints res (MO & T & MS & SP & MX) HN.
  assert (I0 : is_inside shm (shm + size) 0 1 = false).
  { unfold is_inside, mapping_ok in *. replace (shm <=? 0) with false by lia. reflexivity. }
  assert (N : forall st', cstr_arg shm (shm + size) alloc fuel st' 0 = UB).
  { intros st'. unfold cstr_arg. rewrite I0. reflexivity. }
  assert (G0 : grown alloc maxn (cs_blocks st) 0 (cs_blocks st)) by constructor.
  unfold posix_getaddrinfo, callback_helper, prepare. cbn [marshal].
  destruct HN as [->|[[(A & (B & C & D) & E) ->]|[(A & (B & C & D) & E) [(A' & (B' & C' & D') & E') ->]]]].
  - rewrite N. reflexivity.
  - destruct (cstr_arg_ok 8 shm size hdr alloc fuel maxn (cs_blocks st) MO T MS 0 st host hs ltac:(lia) G0 B A E C)
      as (st1 & a1 & E1 & _). rewrite E1. cbn [obind]. rewrite N. reflexivity.
  - destruct (cstr_arg_ok 8 shm size hdr alloc fuel maxn (cs_blocks st) MO T MS 0 st host hs ltac:(lia) G0 B A E C)
      as (st1 & a1 & E1 & (k1 & K1 & G1) & _ & KP & _). rewrite E1. cbn [obind].
    assert (A1 : cstring_at (cs_mem st1) service ss).
    { apply (cstring_same (cs_mem st) service); [|exact A']. apply same_of_read. apply KP. exact B'. }
    destruct (cstr_arg_ok 8 shm size hdr alloc fuel maxn (cs_blocks st) MO T MS k1 st1 service ss ltac:(lia) G1 B' A1 E' C')
      as (st2 & a2 & E2 & _). rewrite E2. cbn [obind]. unfold ptr_arg. rewrite I0. reflexivity.
Qed.
(** C45 (limit): nothing checks malloc's answer before a copy.  Out of memory, an
    address inside the shared memory or a user callback's block outside it (a null
    pointer too) makes the sandboxed code write through a null pointer or read it;
    only an empty block is safe. *)
Theorem child_copy_unchecked : forall st H sp kind idx fd addr n,
  mapping_ok shm size hdr -> 0 <= addr -> addr + n < W ->
  (0 < n -> alloc (cs_blocks st) n = 0 -> shm <= addr -> addr + n < shm + size ->
     callback_bind_or_connect shm (shm + size) alloc fuel H kind sp st fd addr n = UB) /\
  (0 < n -> alloc (cs_blocks st) n = 0 \/ addr = 0 -> addr < shm \/ shm + size <= addr + n ->
     invoke_user_callback shm (shm + size) alloc H st idx addr n fd = UB) /\
  (n = 0 -> invoke_user_callback shm (shm + size) alloc H st idx addr n fd <> UB).
Proof.
  intros st H sp kind idx fd addr n MO A0 AW. unfold mapping_ok in MO.
  split; [|split].
  - intros P Z0 L1 L2. unfold callback_bind_or_connect.
    assert (I : is_inside shm (shm + size) addr n = true) by (unfold is_inside; rewrite wrap_small by (unfold is_word; lia); apply andb_true_intro; lia).
    rewrite I. unfold malloc. rewrite Z0. cbn [Z.eqb andb]. replace (0 <? n) with true by lia. reflexivity.
  - intros P Z0 L. unfold invoke_user_callback.
    assert (I : is_inside shm (shm + size) addr n = false) by (unfold is_inside; rewrite wrap_small by (unfold is_word; lia); apply andb_false_iff; lia).
    rewrite I. cbn [negb]. unfold malloc. replace (0 <? n) with true by lia.
    replace ((alloc (cs_blocks st) n =? 0) || (addr =? 0)) with true by (symmetry; apply orb_true_iff; lia). reflexivity.
  - intros ->. unfold invoke_user_callback.
    assert (K : forall st1 a, obind (Ret (st1, a)) (fun '(st1, a) => obind (callback H st1 (wrap idx) a 0 fd) (fun '(st2, r) => Ret (st2, reply_value r))) <> UB).
    { intros st1 a. cbn [obind]. unfold callback. destruct (H _ _ _); cbn [obind]; discriminate. }
    destruct (negb (is_inside shm (shm + size) addr 0)); [|apply K]. destruct (malloc alloc st 0) as [a st1]. rewrite andb_false_r. apply K.
Qed.

End P.
Print Assumptions child_open_request.
Print Assumptions child_access_request.
Print Assumptions child_stat_request.
Print Assumptions child_openat_request.
Print Assumptions child_openat_absolute.
Print Assumptions child_openat_own_asks_nothing.
Print Assumptions child_user_callback_request.
Print Assumptions child_connect_inside.
Print Assumptions child_connect_outside.
Print Assumptions child_getaddrinfo_request.
Print Assumptions child_getaddrinfo_null_refuted.

(** ** A concrete child that meets the hypotheses: a string, a stack slot and a
    buffer outside the mapping, a socket address inside it, and an allocator
    handing out consecutive 4 KiB slots of the mapping. *)
Definition demo_text : text := list_ascii_of_string "/usr/lib/a".
Definition demo_blocks : list (Z * Z) := [(2000, 32); (1000, 11); (3000, 144); (1000100, 16)].
Definition demo_alloc (bs : list (Z * Z)) (n : Z) : Z := 1010000 + 4096 * Z.of_nat (List.length bs).
Definition demo_child : cst := CSt (write_bytes (fun _ => nul) 1000 demo_text) demo_blocks.

Lemma demo_grown k bs : grown demo_alloc 4096 demo_blocks k bs ->
  List.length bs = (4 + k)%nat /\
  forall b, In b bs -> In b demo_blocks \/
    exists i n, b = (1010000 + 4096 * i, n) /\ 4 <= i < Z.of_nat (List.length bs) /\ 0 < n <= 4096.
Proof.
  induction 1 as [|k bs n G [L IH] Hn].
  - split; [reflexivity|]. auto.
  - split; [cbn [List.length]; lia|]. intros b [<-|B].
    + right. exists (Z.of_nat (List.length bs)), n. cbn [List.length]. unfold demo_alloc. repeat split; lia.
    + destruct (IH b B) as [X|(i & n' & E & I & N)]; [auto|]. right. exists i, n'. cbn [List.length]. repeat split; auto; lia.
Qed.

Example demo_ready : child_ready 1000000 100000 16 demo_alloc 4096 demo_child 2000.
Proof.
  split; [unfold mapping_ok, W; lia|]. split; [|split; [|split; [left; reflexivity|lia]]].
  - split.
    + intros p n H. cbn in H. unfold object, heap_block, W.
      destruct H as [H|[H|[H|[H|[]]]]]; injection H as <- <-; lia.
    + intros b c Hb Hc. cbn in Hb, Hc. unfold disjoint.
      destruct Hb as [<-|[<-|[<-|[<-|[]]]]], Hc as [<-|[<-|[<-|[<-|[]]]]]; cbn [fst snd]; auto; right; lia.
  - intros k bs n Lk G Hn. destruct (demo_grown _ _ G) as [L B]. unfold demo_alloc. rewrite L. split.
    + unfold heap_block. lia.
    + intros b Hb. unfold disjoint. cbn [fst snd]. destruct (B b Hb) as [X|(i & n' & -> & I & N)].
      * cbn in X. destruct X as [<-|[<-|[<-|[<-|[]]]]]; cbn [fst snd]; lia.
      * cbn [fst snd]. rewrite L in I. lia.
Qed.

Example demo_string : program_string demo_child 4096 100 2000 1000 demo_text.
Proof.
  split; [|split; [split; [right; left; reflexivity|split; [|discriminate]]|]].
  - split; [|reflexivity]. intros i c H. do 10 (destruct i as [|i]; [injection H as <-; split; [reflexivity|discriminate]|]).
    destruct i; discriminate.
  - unfold demo_text. cbn [list_ascii_of_string List.length]. lia.
  - cbn. lia.
Qed.

Example demo_buffer : program_block demo_child 4096 2000 3000 144.
Proof. split; [right; right; left; reflexivity|lia]. Qed.

Example demo_address : program_block demo_child 4096 2000 1000100 16 /\ heap_block 1000000 100000 16 1000100 16.
Proof. split; [split; [do 3 right; left; reflexivity|lia]|unfold heap_block; lia]. Qed.

(** A name of a descriptor of process 7, and a path beneath the same directory
    that is none. *)
Example demo_own_name : own_name (tx "/proc/7/fd/") (tx "/proc/7/fd/ +12x") /\
  ~ own_name (tx "/proc/7/fd/") (tx "/proc/7/fd/x").
Proof.
  split; apply own_descriptor_iff || (rewrite <- own_descriptor_iff; intros N; apply N; reflexivity).
  discriminate.
Qed.
Example copy_unchecked_ex : forall H,
  callback_bind_or_connect 1000000 (1000000 + 100000) (fun _ _ => 0) 100 H 4 2000 demo_child 5 1000100 16 = UB /\
  invoke_user_callback 1000000 (1000000 + 100000) (fun _ _ => 0) H demo_child 64 1000 3 (-1) = UB.
Proof.
  intros H. destruct (child_copy_unchecked 1000000 100000 16 (fun _ _ => 0) 100 demo_child H 2000 4 64 5 1000100 16) as [A _]; try (unfold mapping_ok, W; lia).
  destruct (child_copy_unchecked 1000000 100000 16 (fun _ _ => 0) 100 demo_child H 2000 4 64 (-1) 1000 3) as (_ & B & _); try (unfold mapping_ok, W; lia).
  split; [apply A; lia|apply B; lia].
Qed.
Print Assumptions child_copy_unchecked.
