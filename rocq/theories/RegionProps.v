(** Claimed theorems about sandbox bounds checks, string copies and array
    allocation (C08, C09, C10, C46, C47). *)
From Coq Require Import String Ascii List ZArith Lia Bool.
From Verif Require Import Base RegionModel RegionSpec RegionProof.
Import ListNotations.
Open Scope Z_scope.

(** A realistic mapping: 1 GiB at 0x7f0040000000 with a 2 KiB header. *)
Definition ex_shm : Z := 0x7f0040000000.
Definition ex_size : Z := 2 ^ 30.
Definition ex_hdr : Z := 2048.

Example ex_mapping : mapping_ok ex_shm ex_size ex_hdr.
Proof. unfold mapping_ok, ex_shm, ex_size, ex_hdr, W. lia. Qed.

(** C08: contains(p, n) decides exactly "p is a byte of the accepted part of
    the region and the whole block ends at or before its top". *)
Theorem contains_exact : forall shm size hdr p n,
  mapping_ok shm size hdr -> is_word p -> is_word n ->
  (contains (library_heap shm size hdr) p n = true
   <-> shm + 2 * hdr <= p /\ p < shm + size /\ p + n <= shm + size).
Proof. exact contains_iff. Qed.
Print Assumptions contains_exact.

(** C08: an accepted block lies inside the shared heap (after the header) and
    does not wrap around the address space. *)
Theorem contains_sound : forall shm size hdr p n,
  mapping_ok shm size hdr -> is_word p -> is_word n ->
  contains (library_heap shm size hdr) p n = true ->
  block_within (shm + hdr) (shm + size) p n /\ p + n < W.
Proof.
  intros shm size hdr p n M Hp Hn H.
  apply contains_iff in H; auto. destruct M as (A & B & C & D). split; [|lia].
  intros x Hx. lia.
Qed.
Print Assumptions contains_sound.

(** C08: shrinking an accepted block (from either end, keeping its first byte
    in the region) keeps it accepted. *)
Theorem contains_shrink : forall shm size hdr p n q m,
  mapping_ok shm size hdr -> is_word p -> is_word n -> is_word q -> is_word m ->
  contains (library_heap shm size hdr) p n = true ->
  p <= q -> q + m <= p + n -> 0 < m ->
  contains (library_heap shm size hdr) q m = true.
Proof.
  intros shm size hdr p n q m M Hp Hn Hq Hm H A B C.
  apply contains_iff in H; auto. apply contains_iff; auto. lia.
Qed.
Print Assumptions contains_shrink.

(** C08: every non-empty block that starts in a whole chunk after the chunk
    holding the header, and ends in the region, is accepted.  All memory the
    chunk allocator hands out is of this kind. *)
Theorem contains_accepts_chunk_memory : forall shm size hdr chunk p n,
  mapping_ok shm size hdr -> is_word p -> is_word n ->
  2 * hdr <= chunk -> shm + chunk <= p -> p + n <= shm + size -> 0 < n ->
  contains (library_heap shm size hdr) p n = true.
Proof.
  intros shm size hdr chunk p n M Hp Hn A B C D. apply contains_iff; auto. lia.
Qed.
Print Assumptions contains_accepts_chunk_memory.

(** C08: the accepted part is smaller than [sandbox_heap()]: the header is
    skipped twice, so a block at the very start of the heap is refused. *)
Theorem contains_every_heap_block_refuted : forall shm size hdr,
  mapping_ok shm size hdr ->
  let h := library_heap shm size hdr in
  block_within (fst (sandbox_heap h)) (snd (sandbox_heap h)) (shm + hdr) 1 /\
  contains h (shm + hdr) 1 = false.
Proof.
  intros shm size hdr M h. split.
  - unfold h. rewrite library_heap_eq by exact M. cbn [sandbox_heap fst snd h_base h_top].
    unfold sandbox_heap, block_within; cbn [h_base h_top fst snd].
    destruct M as (A & B & C & D). intros x Hx. lia.
  - destruct (contains h (shm + hdr) 1) eqn:E; [|reflexivity].
    unfold h in E. apply contains_iff in E; auto.
    + destruct M as (A & B & C & D). lia.
    + destruct M as (A & B & C & D). unfold is_word. lia.
    + unfold is_word, W. lia.
Qed.
Print Assumptions contains_every_heap_block_refuted.

(** C08: a pointer read from the sandbox becomes null or stays itself, and
    then the whole object lies in the sandbox. *)
Theorem domesticate_null_or_inside : forall shm size hdr objsize p,
  mapping_ok shm size hdr -> is_word p -> is_word objsize ->
  let q := capptr_domesticate (library_heap shm size hdr) objsize p in
  q = 0 \/ (q = p /\ block_within (shm + hdr) (shm + size) p objsize).
Proof.
  intros shm size hdr o p M Hp Ho. unfold capptr_domesticate.
  destruct (contains _ p o) eqn:E; [right|left; reflexivity].
  split; [reflexivity|]. apply (contains_sound shm size hdr p o); auto.
Qed.
Print Assumptions domesticate_null_or_inside.

Example contains_instance :
  contains (library_heap ex_shm ex_size ex_hdr) (ex_shm + 16384) 16384 = true /\
  contains (library_heap ex_shm ex_size ex_hdr) (ex_shm + 16384) (W - 16384) = false /\
  contains (library_heap ex_shm ex_size ex_hdr) (ex_shm + ex_size - 8) 9 = false.
Proof. vm_compute. auto. Qed.

(** C09: whatever the sandbox writes while strdup_out runs, every load is
    inside the shared region, and a non-null result is a private NUL-terminated
    buffer no longer than the distance to the region's end. *)
Theorem strdup_out_bounded_terminated : forall shm size hdr rd malloc_ok str r,
  mapping_ok shm size hdr -> is_word str ->
  strdup_out (library_heap shm size hdr) rd malloc_ok str = Ret r ->
  (forall x, In x (dup_trace r) -> shm + 2 * hdr <= x < shm + size) /\
  (forall buf, dup_buf r = Some buf ->
     (exists bytes, buf = bytes ++ [nul]) /\
     Z.of_nat (length buf) <= shm + size - str /\
     exists s, c_view buf = Some s).
Proof. exact strdup_out_safe. Qed.
Print Assumptions strdup_out_bounded_terminated.

(** C09: whatever the sandbox writes meanwhile, what the host then finds in its copy
    is a string of bytes each of which was in the sandbox's memory at its place when
    it was loaded, up to one that was NUL; null means that there was none. *)
Theorem strdup_out_reads_what_was_there : forall shm size hdr rd malloc_ok str r,
  mapping_ok shm size hdr -> is_word str ->
  strdup_out (library_heap shm size hdr) rd malloc_ok str = Ret r ->
  (dup_buf r = None -> no_cstring (shm + 2 * hdr) (shm + size) rd str) /\
  (forall buf, dup_buf r = Some buf -> exists s, c_view buf = Some s /\ cstring_read (shm + 2 * hdr) (shm + size) rd str s).
Proof. exact strdup_out_read. Qed.
Print Assumptions strdup_out_reads_what_was_there.

(** C09: it always finishes (when malloc succeeds), whatever the sandbox does. *)
Theorem strdup_out_terminates : forall shm size hdr rd str,
  exists r, strdup_out (library_heap shm size hdr) rd true str = Ret r.
Proof. exact strdup_out_total. Qed.
Print Assumptions strdup_out_terminates.

(** C09: with nobody writing, the result is exactly the C string. *)
Theorem strdup_out_copies_cstring : forall shm size hdr m str s,
  mapping_ok shm size hdr -> is_word str ->
  shm + 2 * hdr <= str -> str + Z.of_nat (length s) < shm + size ->
  cstring_at m str s ->
  exists tr, strdup_out (library_heap shm size hdr) (fun _ a => m a) true str
             = Ret (DupResult (Some (s ++ [nul])) tr).
Proof.
  intros shm size hdr m str s M Hs A B C.
  destruct (strdup_out_total shm size hdr (stable m) str) as [[[buf|] tr] E].
  - exists tr. destruct (strdup_out_stable_some _ _ _ _ _ _ _ M Hs E) as (s' & -> & C' & _).
    rewrite (cstring_unique _ _ _ _ C C'). exact E.
  - exfalso. destruct (strdup_out_stable_none _ _ _ _ _ _ M Hs E) as [X|[X|X]].
    + lia.
    + lia.
    + specialize (X s C). lia.
Qed.
Print Assumptions strdup_out_copies_cstring.

(** C09: with nobody writing, null means that the pointer is outside or that
    no NUL occurs before the end of the region. *)
Theorem strdup_out_null_reason : forall shm size hdr m str tr,
  mapping_ok shm size hdr -> is_word str ->
  strdup_out (library_heap shm size hdr) (fun _ a => m a) true str
    = Ret (DupResult None tr) ->
  str < shm + 2 * hdr \/ shm + size <= str \/
  forall s, cstring_at m str s -> shm + size <= str + Z.of_nat (length s).
Proof. exact strdup_out_stable_none. Qed.
Print Assumptions strdup_out_null_reason.

(** C09: the limit: a failed malloc is not noticed. *)
Theorem strdup_out_malloc_failure_refuted : exists h rd str,
  strdup_out h rd false str = UB.
Proof.
  exists (library_heap ex_shm 8192 ex_hdr), (fun _ _ => nul), (ex_shm + 4096).
  vm_compute. reflexivity.
Qed.
Print Assumptions strdup_out_malloc_failure_refuted.

(** The sandbox shortens the string between the two scans: the result is
    still terminated, its C view is the shorter string. *)
Example strdup_out_race :
  let rd : reads := fun t a =>
    if (t <? 4)%nat then (if a =? ex_shm + 4099 then nul else "x"%char)
    else (if a =? ex_shm + 4097 then nul else "y"%char) in
  exists tr, strdup_out (library_heap ex_shm 8192 ex_hdr) rd true (ex_shm + 4096)
    = Ret (DupResult (Some ["y"%char; nul; "y"%char; nul]) tr)
  /\ c_view ["y"%char; nul; "y"%char; nul] = Some ["y"%char].
Proof. cbv zeta. eexists. split; vm_compute; reflexivity. Qed.

(** C10: the allocator is asked for exactly sizeof(T)*count bytes, or not at
    all, and not at all only if the product does not fit in 64 bits. *)
Theorem alloc_request_never_wraps : forall tsize count,
  is_word tsize -> is_word count ->
  (alloc_request tsize count = Some (tsize * count) /\ tsize * count < W) \/
  (alloc_request tsize count = None /\ W <= tsize * count).
Proof. exact alloc_request_exact. Qed.
Print Assumptions alloc_request_never_wraps.

(** C10: a successful alloc<T>(count) got its memory from a request of exactly
    count*sizeof(T) bytes, zeroed all of it and wrote nothing else. *)
Theorem alloc_array_in_request : forall allocator tsize count pl,
  is_word tsize -> is_word count ->
  alloc_array allocator tsize count = Some pl ->
  pl_requested pl = tsize * count /\ tsize * count < W /\
  pl_addr pl = allocator (tsize * count) /\ pl_addr pl <> 0 /\
  (forall x b, In (x, b) (pl_stored pl) ->
               pl_addr pl <= x < pl_addr pl + tsize * count /\ b = nul) /\
  (forall x, pl_addr pl <= x < pl_addr pl + tsize * count ->
             last_store (pl_stored pl) x = Some nul).
Proof. exact alloc_array_facts. Qed.
Print Assumptions alloc_array_in_request.

Example alloc_array_instance :
  alloc_request 16 (2 ^ 60) = None /\
  option_map pl_requested (alloc_array (fun _ => ex_shm + 65536) 12 5) = Some 60.
Proof. vm_compute. auto. Qed.

(** C10: a successful alloc<T>(args...) got its memory from a request of exactly
    sizeof(T) bytes and stored exactly the constructed object in it. *)
Theorem alloc_object_in_request : forall allocator image pl,
  is_word (Z.of_nat (length image)) ->
  alloc_object allocator image = Some pl ->
  pl_requested pl = Z.of_nat (length image) /\ pl_addr pl = allocator (Z.of_nat (length image)) /\ pl_addr pl <> 0 /\
  (forall x b, In (x, b) (pl_stored pl) -> pl_addr pl <= x < pl_addr pl + Z.of_nat (length image)) /\
  (forall i b, nth_error image i = Some b -> last_store (pl_stored pl) (pl_addr pl + Z.of_nat i) = Some b).
Proof.
  intros al im pl Wd. unfold alloc_object.
  destruct (alloc_request_exact (Z.of_nat (length im)) 1 Wd ltac:(unfold is_word, W; lia)) as [[E L]|[E L]]; rewrite E; [|discriminate].
  rewrite Z.mul_1_r. destruct (al (Z.of_nat (length im)) =? 0) eqn:Z0; [discriminate|]. apply Z.eqb_neq in Z0.
  intros H. injection H as <-. cbn [pl_requested pl_addr pl_stored]. repeat split; auto.
  - apply bytes_from_addr in H. lia.
  - apply bytes_from_addr in H. lia.
  - intros i b H. now apply last_store_bytes_from.
Qed.
Print Assumptions alloc_object_in_request.

(** C10: alloc<T>(n) with n of type size_t makes room for n elements; *)
Theorem alloc_count_of_size_t : forall allocator n image pl,
  is_word (Z.of_nat (length image)) -> is_word n ->
  alloc_call allocator SizeT n image = Some pl -> pl_requested pl = Z.of_nat (length image) * n.
Proof. intros al n im pl A B E. apply alloc_array_facts in E; [apply E|exact A|exact B]. Qed.
Print Assumptions alloc_count_of_size_t.

(** but with n of any other integer type (such as a literal) it makes room for
    one element only, whatever n is, and stores T(n) there (a limit): an array
    of n > 1 elements is too small. *)
Theorem alloc_count_of_other_type_refuted : forall allocator n image pl,
  is_word (Z.of_nat (length image)) -> (0 < length image)%nat -> 1 < n ->
  alloc_call allocator OtherInteger n image = Some pl ->
  pl_requested pl < Z.of_nat (length image) * n /\
  forall i b, nth_error image i = Some b -> last_store (pl_stored pl) (pl_addr pl + Z.of_nat i) = Some b.
Proof.
  intros al n im pl A L N E. apply alloc_object_in_request in E as (E1 & _ & _ & _ & E5); [|exact A]. split; [|exact E5]. nia.
Qed.
Print Assumptions alloc_count_of_other_type_refuted.

Example alloc_call_instance :
  option_map pl_requested (alloc_call (fun _ => ex_shm + 65536) SizeT 8 ["008"%char]) = Some 8 /\
  option_map pl_requested (alloc_call (fun _ => ex_shm + 65536) OtherInteger 8 ["008"%char]) = Some 1.
Proof. vm_compute. auto. Qed.

(** C46: strdup copies the bytes of the string into a block of exactly
    strlen(s) bytes ... *)
Theorem strdup_in_copies_bytes : forall allocator s pl,
  Z.of_nat (length s) < W ->
  strdup_in allocator s = Some pl ->
  pl_requested pl = Z.of_nat (length s) /\
  (forall i c, nth_error s i = Some c ->
               last_store (pl_stored pl) (pl_addr pl + Z.of_nat i) = Some c) /\
  (forall x b, In (x, b) (pl_stored pl) ->
               pl_addr pl <= x < pl_addr pl + Z.of_nat (length s)).
Proof. exact strdup_in_facts. Qed.
Print Assumptions strdup_in_copies_bytes.

(** C46: ... so the copy is never NUL-terminated: whatever follows the block
    in the sandbox is part of the string the sandbox sees. *)
Theorem strdup_in_terminated_refuted : forall allocator s pl,
  Z.of_nat (length s) < W ->
  strdup_in allocator s = Some pl ->
  last_store (pl_stored pl) (pl_addr pl + Z.of_nat (length s)) = None.
Proof.
  intros al s pl L H. destruct (strdup_in_facts al s pl L H) as (_ & _ & F).
  destruct (last_store _ _) as [c|] eqn:E; [|reflexivity].
  apply last_store_in in E. apply F in E. lia.
Qed.
Print Assumptions strdup_in_terminated_refuted.

Example strdup_in_instance :
  option_map (fun pl => (pl_requested pl, last_store (pl_stored pl) 4098))
    (strdup_in (fun _ => 4096) ["a"; "b"; "c"]%char) = Some (3, Some "c"%char).
Proof. reflexivity. Qed.

(** C47: a sandbox of [size] GiB gets the smallest power of two of bytes that
    holds it, for every size from 1 GiB to 2^33 GiB. *)
Theorem library_size_honoured : forall size,
  1 <= size <= 2 ^ 33 ->
  exists k n, library_map_size size = Ret n /\ 0 <= k /\ n = 2 ^ k /\
    size * 2 ^ 30 <= n /\ (forall j, 0 <= j -> size * 2 ^ 30 <= 2 ^ j -> n <= 2 ^ j).
Proof. exact library_map_size_ok. Qed.
Print Assumptions library_size_honoured.

(** C47: outside that range the shift silently wraps: size 0 is undefined
    behaviour and 2^34 + 1 GiB yields a 1 GiB sandbox. *)
Theorem library_size_wraps_refuted :
  library_map_size 0 = UB /\ library_map_size (2 ^ 34) = UB /\
  library_map_size (2 ^ 34 + 1) = Ret (2 ^ 30).
Proof. vm_compute. auto. Qed.
Print Assumptions library_size_wraps_refuted.

Example library_size_instance : library_map_size 3 = Ret (4 * 2 ^ 30).
Proof. reflexivity. Qed.
