(** Claimed theorems about mapping the shared region (C11) and about telling
    the child where it is (C12). *)
From Coq Require Import String Ascii List ZArith Lia Bool.
From Verif Require Import Base BuddyModel BuddyProof RegionProof MapModel MapSpec MapProof.
Import ListNotations.
Open Scope Z_scope.

(** ** C11 *)

(** A kernel's answer to the request for [n] bytes: page aligned, not at zero,
    inside the address space, and not used by anything else. *)
Definition good_reservation (page r n : Z) (m : aspace) : Prop :=
  0 < r /\ (page | r) /\ r + n < W /\ forall y, r <= y < r + n -> m y = Unmapped.

(** Wherever the kernel puts the reservation, the object ends up mapped once,
    whole, at a multiple of its size inside the reservation, and every other
    byte of the address space is as it was before the constructor ran.  No
    munmap is asked for zero bytes (which is an error). *)
Theorem shm_map_aligned_and_exact : forall page k lg r m,
  page = 2 ^ k -> 0 <= k < lg -> lg <= 62 -> good_reservation page r (2 * 2 ^ lg) m ->
  exists os base, shm_map page lg r true = Ret (os, base) /\
    (2 ^ lg | base) /\ r <= base /\ base + 2 ^ lg <= r + 2 * 2 ^ lg /\
    (forall a n, In (Unmap a n) os -> 0 < n) /\
    forall x, apply_ops page m os x =
      if (base <=? x) && (x <? base + 2 ^ lg) then Obj (x - base) else m x.
Proof.
  intros page k lg r m Hp Hk Hl (R1 & R2 & R3 & R4).
  destruct (shm_map_spec page k lg r m Hp Hk Hl R1 R2 ltac:(lia)) as (os & E & Pos & A).
  assert (P : 0 < 2 ^ lg) by (apply Z.pow_pos_nonneg; lia).
  destruct (align_up_bounds r (2 ^ lg) P) as [D B].
  exists os, (align_up r (2 ^ lg)). split; [exact E|]. split; [exact D|]. split; [lia|]. split; [lia|].
  split; [exact Pos|]. intros x. apply A. intros y Hy. apply R4. lia.
Qed.
Print Assumptions shm_map_aligned_and_exact.

(** The branch for objects of at most a page. *)
Theorem shm_map_small_aligned_and_exact : forall page k lg r m,
  page = 2 ^ k -> 0 <= lg <= k -> lg <= 62 -> (page | r) -> r <> 2 ^ 64 - 1 ->
  exists os, shm_map page lg r true = Ret (os, r) /\ (2 ^ lg | r) /\
    forall x, apply_ops page m os x = if (r <=? x) && (x <? r + 2 ^ lg) then Obj (x - r) else m x.
Proof. intros. eapply shm_map_small_spec; eauto. Qed.
Print Assumptions shm_map_small_aligned_and_exact.

(** Construction followed by destruction leaves the address space as it was. *)
Theorem shm_map_unmap_restores : forall page k lg r m,
  page = 2 ^ k -> 0 <= k < lg -> lg <= 62 -> good_reservation page r (2 * 2 ^ lg) m ->
  exists os base, shm_map page lg r true = Ret (os, base) /\
    forall x, apply_ops page m (os ++ shm_unmap lg base) x = m x.
Proof.
  intros page k lg r m Hp Hk Hl G. pose proof G as (R1 & R2 & R3 & R4).
  destruct (shm_map_aligned_and_exact page k lg r m Hp Hk Hl G) as (os & base & E & D & B1 & B2 & _ & A).
  exists os, base. split; [exact E|]. intros x.
  assert (P : 0 < 2 ^ lg) by (apply Z.pow_pos_nonneg; lia).
  assert (Pp : 0 < page) by (subst; apply Z.pow_pos_nonneg; lia).
  unfold shm_unmap. assert (base =? MAP_FAILED = false) as -> by (unfold MAP_FAILED; lia).
  unfold apply_ops. rewrite fold_left_app. fold (apply_ops page m os). cbn [fold_left apply_op].
  assert (Dp : (page | base)).
  { apply Z.divide_trans with (2 ^ lg); [|exact D]. subst page. apply divide_pow2. lia. }
  rewrite (mod_divide _ _ Pp Dp). assert (0 <? 2 ^ lg = true) as -> by lia. cbn [andb].
  unfold fill. rewrite A. destruct ((base <=? x) && (x <? base + 2 ^ lg)) eqn:Q; [|reflexivity].
  symmetry. apply R4. lia.
Qed.
Print Assumptions shm_map_unmap_restores.

(** What MAP_ALIGNED promises: a mapping of [size] bytes at a multiple of 2^n
    where nothing was mapped, or failure. *)
Definition aligned_mmap (m : aspace) (mmap : Z -> Z -> Z) : Prop :=
  forall n size, mmap n size = 2 ^ 64 - 1 \/
    ((2 ^ n | mmap n size) /\ 0 < mmap n size /\ mmap n size + size <= 2 ^ 64 - 1 /\
     forall x, mmap n size <= x < mmap n size + size -> m x = Unmapped).

(** On systems with MAP_ALIGNED: the object ends up mapped once, whole, at a
    multiple of its size, and every other byte is as before; destruction leaves
    the address space as it was.  Or else nothing changes and the base is
    MAP_FAILED. *)
Theorem shm_map_mmap_aligned_and_exact : forall page k lg mmap m,
  page = 2 ^ k -> 0 <= k <= lg -> lg <= 62 -> aligned_mmap m mmap ->
  exists os base, shm_map_mmap_aligned lg mmap = Ret (os, base) /\
    (base = 2 ^ 64 - 1 -> forall x, apply_ops page m os x = m x) /\
    (base <> 2 ^ 64 - 1 -> (2 ^ lg | base) /\
       forall x, apply_ops page m os x = if (base <=? x) && (x <? base + 2 ^ lg) then Obj (x - base) else m x) /\
    forall x, apply_ops page m (os ++ shm_unmap lg base) x = m x.
Proof.
  unfold aligned_mmap. change (2 ^ 64 - 1) with MAP_FAILED.
  intros page k lg mmap m Hp Hk Hl A. unfold shm_map_mmap_aligned. assert (lg <? 64 = true) as -> by lia. cbn [negb].
  exists (if mmap lg (2 ^ lg) =? MAP_FAILED then [] else [MapObj (mmap lg (2 ^ lg)) (2 ^ lg)]), (mmap lg (2 ^ lg)).
  split; [reflexivity|]. destruct (A lg (2 ^ lg)) as [E|(D & P & L & F)].
  - rewrite E, Z.eqb_refl. unfold shm_unmap. rewrite Z.eqb_refl. split; [reflexivity|]. split; [congruence|reflexivity].
  - assert (P2 : 0 < 2 ^ lg) by (apply Z.pow_pos_nonneg; lia). assert (Pp : 0 < page) by (subst; apply Z.pow_pos_nonneg; lia).
    set (b := mmap lg (2 ^ lg)) in *. unfold shm_unmap. replace (b =? MAP_FAILED) with false by lia.
    split; [lia|]. split; [intros _; split; [exact D|reflexivity]|]. intros x. cbn [app apply_ops fold_left apply_op].
    assert (Dp : (page | b)).
    { apply Z.divide_trans with (2 ^ lg); [|exact D]. subst page. apply divide_pow2. lia. }
    rewrite (mod_divide _ _ Pp Dp). assert (0 <? 2 ^ lg = true) as -> by lia. cbn [andb]. unfold fill.
    destruct ((b <=? x) && (x <? b + 2 ^ lg)) eqn:Q; [|reflexivity]. symmetry. apply F. lia.
Qed.
Print Assumptions shm_map_mmap_aligned_and_exact.
(** The hypothesis is met: a kernel that puts every mapping at the first
    multiple of its alignment, in an empty address space. *)
Example aligned_mmap_ex : exists mmap, aligned_mmap (fun _ => Unmapped) mmap /\ mmap 30 (2 ^ 30) = 2 ^ 30.
Proof.
  exists (fun n size => if (0 <=? n) && (2 ^ n + size <=? MAP_FAILED) then 2 ^ n else MAP_FAILED).
  split; [|vm_compute; reflexivity]. intros n size. destruct (Z.leb_spec 0 n); [|left; reflexivity].
  destruct (Z.leb_spec (2 ^ n + size) MAP_FAILED); [|left; reflexivity]. right. cbn [andb].
  split; [apply Z.divide_refl|]. split; [apply Z.pow_pos_nonneg; lia|]. split; [assumption|reflexivity].
Qed.

(** The child's over-allocating range keeps exactly an aligned block. *)
Theorem pal_range_aligned_and_exact : forall page k lg r m,
  page = 2 ^ k -> 0 <= k <= lg -> lg <= 62 -> good_reservation page r (2 * 2 ^ lg) m ->
  let '(os, base) := pal_alloc_range (2 ^ lg) r in
  (2 ^ lg | base) /\ r <= base /\ base + 2 ^ lg <= r + 2 * 2 ^ lg /\
  (forall a n, In (Unmap a n) os -> 0 < n) /\
  forall x, apply_ops page m os x = if (base <=? x) && (x <? base + 2 ^ lg) then Anon else m x.
Proof.
  intros page k lg r m Hp Hk Hl (R1 & R2 & R3 & R4).
  destruct (pal_alloc_spec page k lg r m Hp Hk Hl R1 R2 ltac:(lia)) as (E & A & U).
  assert (P : 0 < 2 ^ lg) by (apply Z.pow_pos_nonneg; lia).
  destruct (align_up_bounds r (2 ^ lg) P) as [D B].
  destruct (pal_alloc_range (2 ^ lg) r) as [os base]. cbn [snd fst] in *. subst base.
  split; [exact D|]. split; [lia|]. split; [lia|]. split; [exact U|]. intros x. apply A. intros y Hy. apply R4. lia.
Qed.
Print Assumptions pal_range_aligned_and_exact.

(** Limit: a failed reservation is not reported; the constructor returns and the
    base is MAP_FAILED, (void * )-1.  It goes on with that address, but nothing that
    is mapped is touched: the ranges it computes wrap, and the only munmap it asks
    for is refused because its address is odd. *)
Theorem shm_map_failure_unreported : forall page k lg m,
  page = 2 ^ k -> 1 <= k < lg -> lg <= 62 ->
  exists os, shm_map page lg (2 ^ 64 - 1) false = Ret (os, 2 ^ 64 - 1) /\
    forall x, apply_ops page m os x = m x.
Proof.
  intros page k lg m Hp Hk Hl. unfold shm_map. assert (lg <? 64 = true) as -> by lia. cbn [negb].
  assert (Lt : page < 2 ^ lg) by (subst page; apply Z.pow_lt_mono_r; lia).
  assert (page <? 2 ^ lg = true) as -> by lia. change (2 ^ 64 - 1 =? MAP_FAILED) with true. cbn iota zeta.
  assert (Pk : 2 <= page) by (subst page; replace k with (Z.succ (k - 1)) by lia; rewrite Z.pow_succ_r by lia;
    pose proof (Z.pow_pos_nonneg 2 (k - 1)); lia).
  assert (Bd : 2 ^ lg <= 2 ^ 62) by (apply Z.pow_le_mono_r; lia).
  assert (A : p_align_up (2 ^ 64 - 1) (2 ^ lg) = 0).
  { unfold p_align_up. assert (E : align_up (2 ^ 64 - 1) (2 ^ lg) = W).
    { unfold align_up, align_down. replace (2 ^ 64 - 1 + 2 ^ lg - 1) with (W + (2 ^ lg - 2)) by (change W with (2 ^ 64); lia).
      assert (Dw : W mod 2 ^ lg = 0).
      { apply Z.mod_divide; [lia|]. change W with (2 ^ 64). apply divide_pow2. lia. }
      rewrite Z.add_mod, Dw by lia. rewrite Z.add_0_l, Z.mod_mod by lia. rewrite (Z.mod_small (2 ^ lg - 2)) by lia. lia. }
    rewrite E. reflexivity. }
  rewrite A. assert (2 ^ 64 - 1 <? 0 = false) as -> by reflexivity. cbn [app].
  assert (W1 : wrap (2 ^ lg * 2) = 2 ^ lg * 2) by (apply wrap_small; unfold is_word; change W with (2 ^ 64); lia).
  assert (E1 : p_off (2 ^ 64 - 1) (wrap (2 ^ lg * 2)) = 2 ^ lg * 2 - 1).
  { rewrite W1. unfold p_off, wrap. replace (2 ^ 64 - 1 + 2 ^ lg * 2) with (2 ^ lg * 2 - 1 + 1 * W) by (change W with (2 ^ 64); lia).
    rewrite Z.mod_add by (change W with (2 ^ 64); lia). apply Z.mod_small. change W with (2 ^ 64). lia. }
  assert (E2 : p_off MAP_FAILED (2 ^ lg) = 2 ^ lg - 1).
  { unfold p_off, wrap. replace (MAP_FAILED + 2 ^ lg) with (2 ^ lg - 1 + 1 * W) by (unfold MAP_FAILED; change W with (2 ^ 64); lia).
    rewrite Z.mod_add by (change W with (2 ^ 64); lia). apply Z.mod_small. change W with (2 ^ 64). lia. }
  rewrite E1, E2. assert (2 ^ lg - 1 <? 2 ^ lg * 2 - 1 = true) as -> by lia.
  eexists. split; [reflexivity|]. intros x. cbn [apply_ops fold_left apply_op].
  assert (N : (2 ^ lg - 1) mod page =? 0 = false); [|rewrite N; reflexivity].
  apply Z.eqb_neq. intros M. apply Z.mod_divide in M; [|lia]. destruct M as (c & M).
  assert (D : (page | 2 ^ lg)) by (subst page; apply divide_pow2; lia). destruct D as (d & D).
  assert (F : (page | 1)) by (exists (d - c); rewrite Z.mul_sub_distr_r; lia). apply Z.divide_1_r_nonneg in F; lia.
Qed.
Print Assumptions shm_map_failure_unreported.

(** Limit: when the second mmap fails the upper part of the reservation stays mapped
    for good, but nothing else is touched either. *)
Theorem shm_map_fixed_failure_leaks : forall page k lg r m,
  page = 2 ^ k -> 1 <= k < lg -> lg <= 62 -> good_reservation page r (2 * 2 ^ lg) m ->
  exists os base, shm_map page lg r false = Ret (os, 2 ^ 64 - 1) /\ (r <= base <= r + 2 ^ lg) /\
    forall x, apply_ops page m os x = if (base <=? x) && (x <? r + 2 * 2 ^ lg) then Anon else m x.
Proof.
  intros page k lg r m Hp Hk Hl (R1 & R2 & R3 & R4). unfold shm_map. assert (lg <? 64 = true) as -> by lia. cbn [negb].
  assert (Lt : page < 2 ^ lg) by (subst page; apply Z.pow_lt_mono_r; lia).
  assert (page <? 2 ^ lg = true) as -> by lia. cbn iota zeta.
  assert (Pk : 2 <= page) by (subst page; replace k with (Z.succ (k - 1)) by lia; rewrite Z.pow_succ_r by lia;
    pose proof (Z.pow_pos_nonneg 2 (k - 1)); lia).
  assert (Bd : 2 ^ lg <= 2 ^ 62) by (apply Z.pow_le_mono_r; lia).
  assert (P : 0 < 2 ^ lg) by lia.
  change W with (2 ^ 64) in R3.
  assert (E0 : r =? MAP_FAILED = false) by (unfold MAP_FAILED; change W with (2 ^ 64); lia). rewrite E0.
  destruct (align_up_bounds r (2 ^ lg) P) as [A1 A2].
  assert (W1 : wrap (2 ^ lg * 2) = 2 ^ lg * 2) by (apply wrap_small; unfold is_word; change W with (2 ^ 64); lia).
  assert (E1 : p_off r (wrap (2 ^ lg * 2)) = r + 2 ^ lg * 2)
    by (rewrite W1; apply wrap_small; unfold is_word; change W with (2 ^ 64); lia).
  assert (E2 : p_off MAP_FAILED (2 ^ lg) = 2 ^ lg - 1).
  { unfold p_off, wrap. replace (MAP_FAILED + 2 ^ lg) with (2 ^ lg - 1 + 1 * W) by (unfold MAP_FAILED; change W with (2 ^ 64); lia).
    rewrite Z.mod_add by (change W with (2 ^ 64); lia). apply Z.mod_small. change W with (2 ^ 64). lia. }
  assert (E3 : p_align_up r (2 ^ lg) = align_up r (2 ^ lg))
    by (apply wrap_small; unfold is_word; change W with (2 ^ 64); lia).
  rewrite E1, E2, E3, W1. assert (2 ^ lg - 1 <? r + 2 ^ lg * 2 = true) as -> by lia.
  assert (E4 : p_diff r (align_up r (2 ^ lg)) = align_up r (2 ^ lg) - r)
    by (apply wrap_small; unfold is_word; change W with (2 ^ 64); lia). rewrite E4.
  set (b := align_up r (2 ^ lg)) in *.
  assert (N : (2 ^ lg - 1) mod page =? 0 = false).
  { apply Z.eqb_neq. intros M. apply Z.mod_divide in M; [|lia]. destruct M as (c & M).
    assert (D : (page | 2 ^ lg)) by (subst page; apply divide_pow2; lia). destruct D as (d & D).
    assert (F : (page | 1)) by (exists (d - c); rewrite Z.mul_sub_distr_r; lia). apply Z.divide_1_r_nonneg in F; lia. }
  eexists _, b. split; [reflexivity|]. split; [lia|]. intros x. unfold apply_ops. rewrite !fold_left_app. cbn [fold_left].
  cbn [apply_op]. rewrite N. cbn [andb].
  assert (Pp : 0 < page) by lia. pose proof (mod_divide _ _ Pp R2) as Mr.
  destruct (r <? b) eqn:Q; cbn [fold_left apply_op].
  - rewrite Mr. assert (0 <? b - r = true) as -> by lia. cbn [andb]. unfold fill.
    destruct ((r <=? x) && (x <? r + (b - r))) eqn:Q1.
    + assert ((b <=? x) && (x <? r + 2 * 2 ^ lg) = false) as -> by lia. symmetry. apply R4. lia.
    + destruct ((r <=? x) && (x <? r + 2 ^ lg * 2)) eqn:Q2.
      * assert ((b <=? x) && (x <? r + 2 * 2 ^ lg) = true) as -> by lia. reflexivity.
      * assert ((b <=? x) && (x <? r + 2 * 2 ^ lg) = false) as -> by lia. reflexivity.
  - unfold fill. destruct ((r <=? x) && (x <? r + 2 ^ lg * 2)) eqn:Q2.
    + assert ((b <=? x) && (x <? r + 2 * 2 ^ lg) = true) as -> by lia. reflexivity.
    + assert ((b <=? x) && (x <? r + 2 * 2 ^ lg) = false) as -> by lia. reflexivity.
Qed.
Print Assumptions shm_map_fixed_failure_leaks.

(** Limit: when the PAL of the child fails with a null pointer, memory that
    belongs to something else is unmapped and null is returned. *)
Theorem pal_range_failure_unmaps_foreign_refuted :
  exists m x id, m x = Foreign id /\
    snd (pal_alloc_range (2 ^ 20) 0) = 0 /\
    apply_ops 4096 m (fst (pal_alloc_range (2 ^ 20) 0)) x = Unmapped.
Proof.
  exists (fun _ => Foreign 7), (2 ^ 20 + 5), 7. vm_compute. auto.
Qed.
Print Assumptions pal_range_failure_unmaps_foreign_refuted.

(** The hypotheses hold for a gibibyte reserved 3 pages after a boundary. *)
Example shm_map_instance :
  good_reservation 4096 (0x7f0040000000 + 3 * 4096) (2 * 2 ^ 30) (fun _ => Unmapped) /\
  exists os, shm_map 4096 30 (0x7f0040000000 + 3 * 4096) true = Ret (os, 0x7f0080000000) /\
    os = [MapAnon 0x7f0040003000 0x80000000; MapObj 0x7f0080000000 0x40000000;
          Unmap 0x7f0040003000 0x3fffd000; Unmap 0x7f00c0000000 0x3000].
Proof.
  split.
  - unfold good_reservation. split; [lia|]. split; [exists 0x7f0040003; reflexivity|].
    split; [reflexivity|]. reflexivity.
  - eexists. split; vm_compute; reflexivity.
Qed.

(** ** C12 *)

(** The text fits the buffer for every base and size, and the child decodes
    it to the same numbers, whatever other variables are in its environment
    (as long as no earlier one has the same name). *)
Theorem location_round_trip : forall addr size pre post,
  is_word addr -> is_word size -> addr <> 0 -> size <> 0 ->
  (forall ev v, In ev pre -> ev <> tx "SANDBOX_LOCATION=" ++ v) ->
  exists t, parent_location addr size = Ret t /\ (List.length t < 52)%nat /\
    bootstrap_location (pre ++ t :: post) = Ret (addr, size).
Proof.
  intros addr size pre post Ha Hs Na Ns Hpre. exists (location_text addr size).
  split; [apply parent_location_eq|]. split; [pose proof (location_length addr size); lia|].
  unfold bootstrap_location. rewrite find_location_skip.
  - rewrite find_location_text by assumption. cbn [obind].
    apply Z.eqb_neq in Na, Ns. rewrite Na, Ns. reflexivity.
  - apply Forall_forall. intros ev Hev. destruct (strip_prefix location_name ev) as [v|] eqn:E; [|reflexivity].
    exfalso. apply (Hpre ev v Hev). clear -E. fold location_name.
    revert ev E. generalize location_name. induction l as [|a p IH]; intros ev E; cbn in E.
    + injection E as ->. reflexivity.
    + destruct ev as [|b ev]; [discriminate|]. destruct (ascii_dec a b) as [->|]; [|discriminate].
      cbn. f_equal. apply IH. exact E.
Qed.
Print Assumptions location_round_trip.

(** So the child is told to map exactly the bytes the parent mapped. *)
Theorem child_maps_where_parent_mapped : forall page k lg r m,
  page = 2 ^ k -> 0 <= k < lg -> lg <= 62 -> good_reservation page r (2 * 2 ^ lg) m ->
  exists os base t, shm_map page lg r true = Ret (os, base) /\
    parent_location base (2 ^ lg) = Ret t /\ bootstrap_location [t] = Ret (base, 2 ^ lg).
Proof.
  intros page k lg r m Hp Hk Hl G. pose proof G as (R1 & R2 & R3 & R4).
  destruct (shm_map_aligned_and_exact page k lg r m Hp Hk Hl G) as (os & base & E & D & B1 & B2 & _ & A).
  assert (P : 0 < 2 ^ lg) by (apply Z.pow_pos_nonneg; lia).
  destruct (location_round_trip base (2 ^ lg) [] []) as (t & T1 & _ & T2);
    try (unfold is_word; lia); [intros ? ? []|].
  exists os, base, t. auto.
Qed.
Print Assumptions child_maps_where_parent_mapped.

(** C12: the child refuses to start without a usable location. *)
Theorem bootstrap_location_nonzero : forall env addr size,
  bootstrap_location env = Ret (addr, size) -> addr <> 0 /\ size <> 0.
Proof.
  intros env addr size. unfold bootstrap_location. destruct (find_location env) as [[a l]| | | |]; cbn [obind]; try discriminate.
  destruct (Z.eqb_spec a 0), (Z.eqb_spec l 0); cbn [orb]; try discriminate. intros H. injection H as <- <-. auto.
Qed.
Print Assumptions bootstrap_location_nonzero.

(** C12: and it refuses an environment without a location. *)
Theorem bootstrap_refuses_missing_location : forall env,
  (forall ev v, In ev env -> ev <> tx "SANDBOX_LOCATION=" ++ v) -> bootstrap_location env = Aborts.
Proof.
  intros env H. unfold bootstrap_location. rewrite <- (app_nil_r env), find_location_skip; [reflexivity|].
  apply Forall_forall. intros ev Hev. destruct (strip_prefix location_name ev) as [v|] eqn:E; [|reflexivity].
  exfalso. apply (H ev v Hev). clear -E. fold location_name.
  revert ev E. generalize location_name. induction l as [|a p IH]; intros ev E; cbn in E.
  + injection E as ->. reflexivity.
  + destruct ev as [|b ev]; [discriminate|]. destruct (ascii_dec a b) as [->|]; [|discriminate].
    cbn. f_equal. apply IH. exact E.
Qed.
Print Assumptions bootstrap_refuses_missing_location.

Example location_instance :
  parent_location 0x7f0080000000 (2 ^ 30) = Ret (tx "SANDBOX_LOCATION=7f0080000000:40000000") /\
  bootstrap_location [tx "LD_LIBRARY_PATH_FDS=8"; tx "SANDBOX_LOCATION=7f0080000000:40000000"]
    = Ret (0x7f0080000000, 2 ^ 30).
Proof. vm_compute. auto. Qed.

(** C12: what the child reads from a location in any spelling that strtoull
    accepts: white space, a sign, 0x, digits of either case, too large numbers. *)
Lemma hex_value_digit c : hex_value c = option_map Z.of_nat (digit_value c).
Proof. destruct c as [[] [] [] [] [] [] [] []]; vm_compute; reflexivity. Qed.
Lemma is_space_blank c : is_space c = true <-> blank c.
Proof.
  split.
  - destruct c as [[] [] [] [] [] [] [] []]; intros E; vm_compute in E; try discriminate; vm_compute; tauto.
  - intros B. unfold blank in B. cbn [map In] in B. repeat (destruct B as [<-|B]; [reflexivity|]). destruct B.
Qed.
Lemma digits_app acc a b : (forall c, In c a -> digit_value c <> None) -> digits acc (a ++ b) = digits (fst (digits acc a)) b.
Proof.
  revert acc. induction a as [|c a IH]; intros acc H; [reflexivity|]. cbn [app digits]. rewrite hex_value_digit.
  destruct (digit_value c) eqn:E; [|destruct (H c (or_introl eq_refl) E)]. cbn [option_map]. apply IH. intros x I1. apply H. right. exact I1.
Qed.
Lemma numeral_digits s v : numeral s v -> (forall c, In c s -> digit_value c <> None) /\ digits 0 s = (v, []) /\ s <> [].
Proof.
  induction 1 as [c d E|s v c d N (IH1 & IH2 & IH3) E].
  - split; [intros x [<-|[]]; congruence|]. split; [|discriminate]. cbn [digits]. rewrite hex_value_digit, E. cbn [option_map digits]. f_equal.
  - split; [intros x I1; apply in_app_or in I1 as [I1|[<-|[]]]; [auto|congruence]|]. split; [|destruct s; discriminate].
    rewrite digits_app by exact IH1. rewrite IH2. cbn [fst digits]. rewrite hex_value_digit, E. cbn [option_map digits]. f_equal. lia.
Qed.
Lemma digits_stop acc s : no_digit_first s -> digits acc s = (acc, s).
Proof. intros N. destruct s as [|c r]; [reflexivity|]. cbn [digits]. rewrite hex_value_digit, (N c r eq_refl). reflexivity. Qed.
Lemma starts_no s : no_digit_first s <-> starts_with_digit s = false.
Proof.
  destruct s as [|c r]; cbn [starts_with_digit]; [split; [reflexivity|intros _ ? ? X; discriminate]|]. rewrite hex_value_digit.
  split; [intros N; rewrite (N c r eq_refl); reflexivity|]. intros H x y E. injection E as <- <-. destruct (digit_value c); [discriminate|reflexivity].
Qed.
Lemma skip_blanks blanks s : Forall blank blanks -> (forall c r, s = c :: r -> ~ blank c) -> skip_space (blanks ++ s) = s.
Proof.
  intros F N. induction F as [|c l B F IH]; cbn [app skip_space].
  - destruct s as [|c r]; [reflexivity|]. cbn [skip_space]. destruct (is_space c) eqn:E; [|reflexivity]. apply is_space_blank in E. destruct (N c r eq_refl E).
  - apply is_space_blank in B. rewrite B. exact IH.
Qed.
Lemma digit_plain c : digit_value c <> None -> ~ blank c /\ c <> "-"%char /\ c <> "+"%char /\ c <> "x"%char /\ c <> "X"%char.
Proof.
  intros H. rewrite <- is_space_blank. destruct (hex_value c) as [d|] eqn:E; [|rewrite hex_value_digit in E; destruct (digit_value c); [discriminate|congruence]].
  destruct (hex_value_excl _ _ E) as (A & B & C & D & F & _). rewrite A. repeat split; auto; discriminate.
Qed.

Theorem strtoull_reads : forall s v rest, reads s v rest -> strtoull16 s = (v, rest).
Proof.
  intros s v0 rest R. inversion R as [blanks sg neg rx ds v rest' B S X N Nd Lg E1 E2 E3]; subst. clear R.
  destruct (numeral_digits _ _ N) as (D1 & D2 & D3). destruct ds as [|d0 ds']; [congruence|].
  destruct (digit_plain d0 (D1 d0 (or_introl eq_refl))) as (P1 & P2 & P3 & P4 & P5).
  unfold strtoull16. rewrite skip_blanks; [|exact B|].
  2:{ intros c r E. destruct S, X; cbn in E; injection E as <- _; try exact P1; rewrite <- is_space_blank; discriminate. }
  assert (T : (match sg ++ rx ++ (d0 :: ds') ++ rest with
     | c :: r => if ascii_dec c "-" then (true, r) else if ascii_dec c "+" then (false, r) else (false, sg ++ rx ++ (d0 :: ds') ++ rest)
     | [] => (false, sg ++ rx ++ (d0 :: ds') ++ rest) end) = (neg, rx ++ (d0 :: ds') ++ rest)).
  { destruct S; cbn [app tx]; [|reflexivity|reflexivity]. destruct X; cbn [app]; [|reflexivity|reflexivity].
    destruct (ascii_dec d0 "-"); [contradiction|]. destruct (ascii_dec d0 "+"); [contradiction|reflexivity]. }
  rewrite T. clear T. cbv zeta.
  assert (Dig : starts_with_digit ((d0 :: ds') ++ rest) = true).
  { cbn [app starts_with_digit]. rewrite hex_value_digit. destruct (digit_value d0) eqn:Z0; [reflexivity|]. destruct (D1 d0 (or_introl eq_refl) Z0). }
  assert (T : (match rx ++ (d0 :: ds') ++ rest with
    | a :: b :: r => if ascii_dec a "0" then
        if (if ascii_dec b "x" then true else if ascii_dec b "X" then true else false) && starts_with_digit r
        then r else rx ++ (d0 :: ds') ++ rest else rx ++ (d0 :: ds') ++ rest
    | _ => rx ++ (d0 :: ds') ++ rest end) = (d0 :: ds') ++ rest).
  { destruct X.
    - change ([] ++ (d0 :: ds') ++ rest) with (d0 :: (ds' ++ rest)). change ((d0 :: ds') ++ rest) with (d0 :: (ds' ++ rest)).
      destruct (ds' ++ rest) as [|b r] eqn:Er; [reflexivity|]. destruct (ascii_dec d0 "0") as [->|]; [|reflexivity].
      assert (K : (if ascii_dec b "x" then true else if ascii_dec b "X" then true else false) = false \/ starts_with_digit r = false).
      { destruct ds' as [|d1 ds''].
        - cbn in Er. destruct (ascii_dec b "x") as [->|Nx]; [|destruct (ascii_dec b "X") as [->|NX]]; [right|right|left; reflexivity]; apply starts_no.
          + apply (Lg eq_refl eq_refl _ _ Er). left. reflexivity.
          + apply (Lg eq_refl eq_refl _ _ Er). right. left. reflexivity.
        - left. cbn in Er. injection Er as -> _. destruct (digit_plain b (D1 b (or_intror (or_introl eq_refl)))) as (_ & _ & _ & Q1 & Q2).
          destruct (ascii_dec b "x"); [contradiction|]. destruct (ascii_dec b "X"); [contradiction|reflexivity]. }
      destruct K as [-> | ->]; [reflexivity|]. rewrite andb_false_r. reflexivity.
    - change (tx "0x" ++ (d0 :: ds') ++ rest) with ("0"%char :: "x"%char :: (d0 :: ds') ++ rest). cbv beta iota. rewrite Dig. reflexivity.
    - change (tx "0X" ++ (d0 :: ds') ++ rest) with ("0"%char :: "X"%char :: (d0 :: ds') ++ rest). cbv beta iota. rewrite Dig. reflexivity. }
  rewrite T, Dig. rewrite digits_app by exact D1. rewrite D2. cbn [fst]. rewrite digits_stop by exact Nd.
  change (2 ^ 64) with W. reflexivity.
Qed.
Print Assumptions strtoull_reads.

Lemma strtoull_or s : (exists v rest, reads s v rest) \/ strtoull16 s = (0, s).
Proof.
  destruct (strtoull16 s) as [v0 r0] eqn:E. unfold strtoull16 in E.
  assert (Sk : exists blanks, Forall blank blanks /\ s = blanks ++ skip_space s).
  { clear. induction s as [|c s (bl & F & IH)]; [exists []; split; [constructor|reflexivity]|]. cbn [skip_space]. destruct (is_space c) eqn:E.
    - exists (c :: bl). split; [constructor; [apply is_space_blank, E|exact F]|cbn; congruence].
    - exists []. split; [constructor|reflexivity]. }
  destruct Sk as (blanks & F & Es). set (t := skip_space s) in *.
  set (p := match t with | c :: r => if ascii_dec c "-" then (true, r) else if ascii_dec c "+" then (false, r) else (false, t) | [] => (false, t) end) in E.
  assert (Sg : exists sg, sign sg (fst p) /\ t = sg ++ snd p).
  { unfold p. destruct t as [|c r]; [exists []; split; [constructor|reflexivity]|]. destruct (ascii_dec c "-") as [->|]; [exists (tx "-"); split; [constructor|reflexivity]|].
    destruct (ascii_dec c "+") as [->|]; [exists (tx "+"); split; [constructor|reflexivity]|exists []; split; [constructor|reflexivity]]. }
  destruct p as [neg t1]. cbn [fst snd] in Sg. destruct Sg as (sg & Sg & Et). cbv zeta in E.
  set (t2 := match t1 with | a :: b :: r => if ascii_dec a "0" then if (if ascii_dec b "x" then true else if ascii_dec b "X" then true else false) && starts_with_digit r then r else t1 else t1 | _ => t1 end) in E.
  assert (Rx : exists rx, radix rx /\ t1 = rx ++ t2 /\ (rx = [] -> forall x r, t1 = "0"%char :: x :: r -> In x (tx "xX") -> no_digit_first r)).
  { unfold t2. destruct t1 as [|a [|b r]]; try (exists []; split; [constructor|]; split; [reflexivity|]; intros _ ? ? X; discriminate).
    destruct (ascii_dec a "0") as [->|Na]; [|exists []; split; [constructor|]; split; [reflexivity|]; intros _ x y X; congruence].
    destruct ((if ascii_dec b "x" then true else if ascii_dec b "X" then true else false) && starts_with_digit r) eqn:K.
    - apply andb_prop in K as [K _]. destruct (ascii_dec b "x") as [->|]; [exists (tx "0x"); split; [constructor|]; split; [reflexivity|discriminate]|].
      destruct (ascii_dec b "X") as [->|]; [exists (tx "0X"); split; [constructor|]; split; [reflexivity|discriminate]|discriminate].
    - exists []. split; [constructor|]. split; [reflexivity|]. intros _ x y X I1. injection X as <- <-. apply starts_no.
      apply andb_false_iff in K as [K|K]; [|exact K]. destruct I1 as [<-|[<-|[]]]; discriminate. }
  destruct Rx as (rx & Rx & Et1 & Lg). destruct (starts_with_digit t2) eqn:Sd; [|right; symmetry; exact E]. left.
  assert (N : forall l, starts_with_digit l = true -> exists ds v rest, l = ds ++ rest /\ numeral ds v /\ no_digit_first rest).
  { clear. intros l. destruct l as [|c l]; [discriminate|]. cbn [starts_with_digit]. rewrite hex_value_digit. destruct (digit_value c) as [d|] eqn:Ec; [|discriminate]. intros _.
    assert (G : forall l ds v, numeral ds v -> exists ds' v' rest, ds ++ l = ds' ++ rest /\ numeral ds' v' /\ no_digit_first rest).
    { clear. induction l as [|c l IH]; intros ds v N; [exists ds, v, []; split; [reflexivity|]; split; [exact N|intros ? ? X; discriminate]|].
      destruct (digit_value c) as [d|] eqn:Ec.
      - destruct (IH (ds ++ [c]) _ (numeral_S _ _ _ _ N Ec)) as (ds' & v' & rest & E1 & E2). exists ds', v', rest. rewrite <- app_assoc in E1. auto.
      - exists ds, v, (c :: l). split; [reflexivity|]. split; [exact N|]. intros x r X. congruence. }
    destruct (G l [c] _ (numeral_1 c d Ec)) as (ds' & v' & rest & E1 & E2). exists ds', v', rest. split; [exact E1|exact E2]. }
  destruct (N t2 Sd) as (ds & v & rest & Ed & Nu & Nd). eexists _, _. rewrite Es, Et, Et1, Ed. eapply reads_number; eauto.
  intros -> -> x r -> I1. apply (Lg eq_refl x r); [rewrite Et1, Ed; reflexivity|exact I1].
Qed.
Theorem strtoull_reads_nothing : forall s, (forall v rest, ~ reads s v rest) -> strtoull16 s = (0, s).
Proof. intros s H. destruct (strtoull_or s) as [(v & rest & R)|E]; [destruct (H v rest R)|exact E]. Qed.
Print Assumptions strtoull_reads_nothing.

(** C12: the location in any environment: the first entry with the name decides;
    it must be two such numbers with a colon behind the first. *)
Theorem bootstrap_location_reads : forall pre post t addr rest size rest2,
  (forall ev v, In ev pre -> ev <> tx "SANDBOX_LOCATION=" ++ v) ->
  reads t addr (tx ":" ++ rest) -> reads rest size rest2 -> addr <> 0 -> size <> 0 ->
  bootstrap_location (pre ++ (tx "SANDBOX_LOCATION=" ++ t) :: post) = Ret (addr, size).
Proof.
  intros pre post t addr rest size rest2 Hpre R1 R2 Na Ns. unfold bootstrap_location. rewrite find_location_skip.
  - cbn [find_location]. change (tx "SANDBOX_LOCATION=") with location_name. rewrite strip_prefix_app, (strtoull_reads _ _ _ R1).
    cbn [tx list_ascii_of_string app]. destruct (ascii_dec ":" colon) as [_|X]; [|destruct X; reflexivity].
    rewrite (strtoull_reads _ _ _ R2). cbn [fst obind]. apply Z.eqb_neq in Na, Ns. rewrite Na, Ns. reflexivity.
  - apply Forall_forall. intros ev Hev. destruct (strip_prefix location_name ev) as [v|] eqn:E; [|reflexivity].
    exfalso. apply (Hpre ev v Hev). clear -E. fold location_name.
    revert ev E. generalize location_name. induction l as [|a p IH]; intros ev E; cbn in E.
    + injection E as ->. reflexivity.
    + destruct ev as [|b ev]; [discriminate|]. destruct (ascii_dec a b) as [->|]; [|discriminate].
      cbn. f_equal. apply IH. exact E.
Qed.
Print Assumptions bootstrap_location_reads.

(** C12: an entry that is not a number followed by a colon stops the child. *)
Theorem bootstrap_refuses_bad_location : forall pre post t,
  (forall ev v, In ev pre -> ev <> tx "SANDBOX_LOCATION=" ++ v) ->
  (forall addr rest, ~ reads t addr (tx ":" ++ rest)) -> (forall rest, t <> tx ":" ++ rest) ->
  bootstrap_location (pre ++ (tx "SANDBOX_LOCATION=" ++ t) :: post) = Aborts.
Proof.
  intros pre post t Hpre N Nc. unfold bootstrap_location. rewrite find_location_skip.
  - cbn [find_location]. change (tx "SANDBOX_LOCATION=") with location_name. rewrite strip_prefix_app.
    destruct (strtoull16 t) as [v fin] eqn:S. destruct fin as [|c fin]; [reflexivity|]. destruct (ascii_dec c colon) as [->|]; [|reflexivity].
    exfalso. apply (N v fin).
    destruct (strtoull_or t) as [(v' & rest' & R)|D].
    + rewrite (strtoull_reads _ _ _ R) in S. injection S as -> ->. exact R.
    + rewrite D in S. injection S as _ ->. destruct (Nc fin eq_refl).
  - apply Forall_forall. intros ev Hev. destruct (strip_prefix location_name ev) as [v|] eqn:E; [|reflexivity].
    exfalso. apply (Hpre ev v Hev). clear -E. fold location_name.
    revert ev E. generalize location_name. induction l as [|a p IH]; intros ev E; cbn in E.
    + injection E as ->. reflexivity.
    + destruct ev as [|b ev]; [discriminate|]. destruct (ascii_dec a b) as [->|]; [|discriminate].
      cbn. f_equal. apply IH. exact E.
Qed.
Print Assumptions bootstrap_refuses_bad_location.

Example reads_ex : reads (tx " -0xFfz") (2 ^ 64 - 255) (tx "z").
Proof.
  apply (reads_number (tx " ") (tx "-") true (tx "0x") (tx "Ff") 255 (tx "z")); try constructor; try discriminate.
  - vm_compute. tauto.
  - constructor.
  - apply (numeral_S (tx "F") 15 "f"%char 15); [apply (numeral_1 "F"%char 15)|]; reflexivity.
  - intros c r [= <- <-]. reflexivity.
Qed.
