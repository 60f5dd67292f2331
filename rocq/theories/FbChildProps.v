(** Claimed theorems about the requests of the sandboxed process on FreeBSD (C61). *)
From Coq Require Import String Ascii List ZArith Lia Bool.
From Verif Require Import Base PathModel PathSpec PathProof FileTreeModel FileTreeSpec FileTreeProof FileTreeProps
  RegionModel RegionSpec RegionProof DispatchModel DispatchProps HostCallsModel HostCallsProof
  ChildCallsModel ChildCallsSpec ChildCallsProof ChildCallsProps FbCallsModel.
Import ListNotations.
Open Scope Z_scope.

Section P.
Variables (shm size hdr : Z) (alloc : list (Z * Z) -> Z -> Z) (fuel : nat) (maxn : Z).
Local Notation hb := (heap_block shm size hdr).

Ltac args_ok := repeat match goal with
  | |- Forall2 _ [] _ => constructor
  | |- Forall2 _ (_ :: _) _ => cbn [combine]; constructor
  | |- arg_ok _ _ _ _ _ _ _ => cbn [fst snd]; first [eapply ready_string; eassumption | constructor; assumption | constructor]
  end.
Ltac split_all := repeat match goal with
  | F : Forall2 _ (combine _ _) _ |- _ => cbn [combine] in F
  | F : Forall2 _ (_ :: _) _ |- _ => inversion F; subst; clear F
  | F : Forall2 _ [] _ |- _ => inversion F; subst; clear F
  | F : backs _ (_ :: _) _ _ |- _ => inversion F; subst; clear F
  | F : backs _ [] _ _ |- _ => inversion F; subst; clear F
  end.
Ltac widths D :=
  cbn [map] in D; change (Z.of_nat 8) with 8 in D; change (Z.of_nat 4) with 4 in D;
  change (256 ^ 8) with W in D; change (256 ^ 4) with (2 ^ 32) in D.
Ltac words D := repeat match type of D with
  | context [?a mod W] => rewrite (Z.mod_small a W) in D by (unfold heap_block, mapping_ok in *; lia)
  end.

(** C61: stat.  The host is given a buffer [b] in the shared heap; what it
    leaves there is what the program finds in its own buffer, and nothing else
    of what the host left in memory is changed. *)
Theorem fb_child_stat_request : forall st sp p s buf,
  child_ready shm size hdr alloc maxn st sp -> program_string st maxn fuel sp p s ->
  program_block st maxn sp buf 224 ->
  exists m' q a b, hb q 16 /\ hb a (Z.of_nat (S (List.length s))) /\ hb b 224 /\
    numbers_at m' q [(8, a); (8, b)] /\
    cstring_at m' a s /\ same_bytes m' b (cs_mem st) buf 224 /\
    asks (fun H => fb_callback_stat shm (shm + size) alloc fuel H sp st p buf)
      (CRequest 1 16 q) None m'
      (fun h m => same_bytes m buf h b 224 /\ forall x, ~ buf <= x < buf + 224 -> m x = h x).
Proof.
  intros st sp p s buf (MO & T & MS & SP & MX) PS (PB1 & PB2 & PB3).
  destruct (prepare_ok 8 shm size hdr alloc fuel maxn (cs_blocks st) MO T MS
     [CStr p; CPtr buf 224 true] [Some (p, Z.of_nat (S (List.length s))); Some (buf, 224)] [8; 8]%nat st sp)
    as (st' & q & fs & bk & E & Q & Qd & MF & D & _ & _ & F & BK); auto; try (cbn; lia).
  { args_ok. }
  { intros p0 n0 [X|[X|[]]]; try discriminate; injection X as <- <-; [|congruence].
    destruct PS as (_ & (_ & _ & N) & _). congruence. }
  split_all. cbn [sent fst snd back_of] in *. subst. destruct y as [w a], y0 as [w' b]. cbn [fst snd] in *.
  destruct H1 as [-> (C1 & _ & _ & C4)]. destruct H2 as [-> (B1 & _ & Bd & B4)].
  exists (cs_mem st'), q, a, b. split; [exact Q|]. split; [exact C1|]. split; [exact B1|]. split.
  { widths D. words D. exact (proj2 (proj1 (numbers_of_bytes _ _ _ _) D)). }
  split.
  { apply (cstring_same (cs_mem st) p); [apply same_of_read; exact C4|]. apply PS. }
  split; [apply same_of_read; exact B4|].
  eapply asks_of with (fd := -1); [exact E|reflexivity|reflexivity|]. intros h. cbn [app].
  match goal with X : _ \/ _ |- _ => destruct X as [[-> ->]|[-> Dj]] end.
  - cbn [app copy_back fold_left]. split; [intros i Hi; reflexivity|reflexivity].
  - cbn [app copy_back fold_left]. change (Z.to_nat 224) with 224%nat. split.
    + intros i Hi. replace (buf + i) with (buf + Z.of_nat (Z.to_nat i)) by lia.
      apply write_bytes_in. rewrite read_bytes_nth by lia. do 2 f_equal. lia.
    + intros x Hx. apply write_bytes_out. rewrite read_bytes_length. lia.
Qed.

(** C61: openat of a relative path: the directory descriptor travels with the
    request. *)
Theorem fb_child_openat_request : forall st sp p s dirfd flags mode,
  child_ready shm size hdr alloc maxn st sp -> program_string st maxn fuel sp p s ->
  hd_error s <> Some slash -> 0 <= mode < 2 ^ 32 ->
  exists m' q a, hb q 20 /\ hb a (Z.of_nat (S (List.length s))) /\
    numbers_at m' q [(4, dirfd mod 2 ^ 32); (8, a); (4, flags mod 2 ^ 32); (4, mode)] /\
    cstring_at m' a s /\
    asks (fun H => fb_callback_openat shm (shm + size) alloc fuel H  sp st dirfd p flags mode)
      (CRequest 3 20 q) (if 0 <=? dirfd then Some dirfd else None) m' (fun h m => m = h).
Proof.
  intros st sp p s dirfd flags mode (MO & T & MS & SP & MX) PS NS Hm.
  destruct (prepare_ok 8 shm size hdr alloc fuel maxn (cs_blocks st) MO T MS
     [CInt dirfd; CStr p; CInt flags; CUInt mode] [None; Some (p, Z.of_nat (S (List.length s))); None; None] [4; 8; 4; 4]%nat st sp)
    as (st' & q & fs & bk & E & Q & Qd & MF & D & _ & _ & F & BK); auto; try (cbn; lia).
  { args_ok. }
  { intros p0 n0 [X|[X|[X|[X|[]]]]]; try discriminate. injection X as <- <-. destruct PS as (_ & (_ & _ & N) & _). congruence. }
  split_all. cbn [sent fst snd back_of] in *. subst. destruct y0 as [w a]. cbn [fst snd] in *.
  destruct H2 as [-> (C1 & _ & _ & C4)].
  exists (cs_mem st'), q, a. split; [exact Q|]. split; [exact C1|]. split.
  { widths D. words D. rewrite (Z.mod_small mode) in D by lia. exact (proj2 (proj1 (numbers_of_bytes _ _ _ _) D)). }
  split.
  { apply (cstring_same (cs_mem st) p); [apply same_of_read; exact C4|]. apply PS. }
  eapply asks_of with (fd := dirfd); [exact E|reflexivity| |reflexivity]. intros H. unfold fb_callback_openat.
  destruct PS as (CS & (PB & _) & FL). destruct (proj1 T _ _ PB) as (Pp & _).
  replace (p =? 0) with false by lia. destruct (ascii_dec (cs_mem st p) slash) as [X|_]; [|reflexivity]. exfalso.
  destruct s as [|c r].
  - destruct CS as [_ CS]. cbn in CS. rewrite Z.add_0_r, X in CS. discriminate.
  - destruct CS as [CS _]. destruct (CS 0%nat c eq_refl) as [CS' _]. cbn in CS'. rewrite Z.add_0_r, X in CS'.
    apply NS. cbn. congruence.
Qed.

(** C61: openat of an absolute path is open, whatever the directory. *)
Theorem fb_child_openat_absolute : forall st sp p s dirfd flags mode H,
  child_ready shm size hdr alloc maxn st sp -> program_string st maxn fuel sp p (slash :: s) ->
  fb_callback_openat shm (shm + size) alloc fuel H sp st dirfd p flags mode
  = callback_open shm (shm + size) alloc fuel H sp st p flags mode.
Proof.
  intros st sp p s dirfd flags mode H (MO & T & MS & SP & MX) (CS & (PB & _) & FL).
  unfold fb_callback_openat. destruct (proj1 T _ _ PB) as (Pp & _). replace (p =? 0) with false by lia.
  destruct CS as [CS _]. destruct (CS 0%nat slash eq_refl) as [CS' _]. cbn in CS'. rewrite Z.add_0_r in CS'. rewrite CS'.
  destruct (ascii_dec slash slash); [reflexivity|congruence].
Qed.

(** C61: openat of a null path fails with EINVAL (22) and the host is not asked. *)
Theorem fb_child_openat_null : forall st sp dirfd flags mode H,
  fb_callback_openat shm (shm + size) alloc fuel H sp st dirfd 0 flags mode = Ret (st, -22).
Proof. reflexivity. Qed.
End P.
Print Assumptions fb_child_stat_request.
Print Assumptions fb_child_openat_request.
Print Assumptions fb_child_openat_absolute.
Print Assumptions fb_child_openat_null.

(** A concrete child that meets the hypotheses, with a relative path and a buffer
    of 224 bytes. *)
Definition fb_text : text := list_ascii_of_string "lib/a".
Definition fb_blocks : list (Z * Z) := [(2000, 32); (1000, 6); (3000, 224); (1000100, 16)].
Definition fb_demo : cst := CSt (write_bytes (fun _ => nul) 1000 fb_text) fb_blocks.
Lemma fb_grown k bs : grown demo_alloc 4096 fb_blocks k bs ->
  List.length bs = (4 + k)%nat /\
  forall b, In b bs -> In b fb_blocks \/
    exists i n, b = (1010000 + 4096 * i, n) /\ 4 <= i < Z.of_nat (List.length bs) /\ 0 < n <= 4096.
Proof.
  induction 1 as [|k bs n G [L IH] Hn].
  - split; [reflexivity|]. auto.
  - split; [cbn [List.length]; lia|]. intros b [<-|B].
    + right. exists (Z.of_nat (List.length bs)), n. cbn [List.length]. unfold demo_alloc. repeat split; lia.
    + destruct (IH b B) as [X|(i & n' & E & I & N)]; [auto|]. right. exists i, n'. cbn [List.length]. repeat split; auto; lia.
Qed.
Example fb_demo_ready : child_ready 1000000 100000 16 demo_alloc 4096 fb_demo 2000.
Proof.
  split; [unfold mapping_ok, W; lia|]. split; [|split; [|split; [left; reflexivity|lia]]].
  - split.
    + intros p n H. cbn in H. unfold object, heap_block, W.
      destruct H as [H|[H|[H|[H|[]]]]]; injection H as <- <-; lia.
    + intros b c Hb Hc. cbn in Hb, Hc. unfold disjoint.
      destruct Hb as [<-|[<-|[<-|[<-|[]]]]], Hc as [<-|[<-|[<-|[<-|[]]]]]; cbn [fst snd]; auto; right; lia.
  - intros k bs n Lk G Hn. destruct (fb_grown _ _ G) as [L B]. unfold demo_alloc. rewrite L. split.
    + unfold heap_block. lia.
    + intros b Hb. unfold disjoint. cbn [fst snd]. destruct (B b Hb) as [X|(i & n' & -> & I & N)].
      * cbn in X. destruct X as [<-|[<-|[<-|[<-|[]]]]]; cbn [fst snd]; lia.
      * cbn [fst snd]. rewrite L in I. lia.
Qed.
Example fb_demo_string : program_string fb_demo 4096 100 2000 1000 fb_text /\ hd_error fb_text <> Some slash.
Proof.
  split; [|discriminate]. split; [|split; [split; [right; left; reflexivity|split; [|discriminate]]|]].
  - split; [|reflexivity]. intros i c H. do 5 (destruct i as [|i]; [injection H as <-; split; [reflexivity|discriminate]|]).
    destruct i; discriminate.
  - unfold fb_text. cbn [list_ascii_of_string List.length]. lia.
  - cbn. lia.
Qed.
Example fb_demo_buffer : program_block fb_demo 4096 2000 3000 224.
Proof. split; [right; right; left; reflexivity|lia]. Qed.
