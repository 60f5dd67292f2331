(** Claimed theorems about the memory service, the host's chunk allocation and
    the pagemap (C13-C19). *)
From Coq Require Import List ZArith Lia Bool.
From Verif Require Import Base RegionModel RegionSpec RegionProof BuddyModel BuddyProof
  MemSvcModel MemSvcSpec MemSvcProof.
Import ListNotations.
Open Scope Z_scope.

(** ** C19: entries *)

(** Claiming an entry marks it, twice is once, and neither the slab pointer
    nor the second word changes.  An entry is unowned when it has neither. *)
Theorem claim_for_sandbox_lossless : forall e,
  is_sandbox_owned (claim_for_sandbox e) = true /\
  claim_for_sandbox (claim_for_sandbox e) = claim_for_sandbox e /\
  get_slab_metadata (claim_for_sandbox e) = get_slab_metadata e /\
  e_ras (claim_for_sandbox e) = e_ras e /\
  is_unowned (claim_for_sandbox e) = is_unowned e /\
  (is_unowned e = true <-> get_slab_metadata e = 0 /\ e_ras e = 0).
Proof.
  intros [m r]. unfold claim_for_sandbox, get_slab_metadata, is_unowned; cbn [e_meta e_ras].
  assert (B : forall k, 0 <= k ->
    Z.testbit (Z.ldiff (Z.lor m SANDBOX_BIT) SANDBOX_BIT) k = Z.testbit (Z.ldiff m SANDBOX_BIT) k).
  { intros k Hk. rewrite !Z.ldiff_spec, Z.lor_spec.
    destruct (Z.testbit m k), (Z.testbit SANDBOX_BIT k); reflexivity. }
  split; [apply (claim_owned (Entry m r))|]. split; [|split; [|split; [reflexivity|split]]].
  - rewrite <- Z.lor_assoc, Z.lor_diag. reflexivity.
  - apply Z.bits_inj'. intros k Hk. rewrite !Z.ldiff_spec, !Z.lor_spec.
    destruct (Z.testbit m k), (Z.testbit SANDBOX_BIT k), (Z.testbit META_BOUNDARY_BIT k); reflexivity.
  - apply Z.bits_inj' in B. rewrite B. reflexivity.
  - rewrite <- Z.ldiff_ldiff_l, andb_true_iff, orb_true_iff, !Z.eqb_eq. generalize (Z.ldiff m SANDBOX_BIT). intros n.
    split; [intros [[-> | ->] ->]; auto|]. intros [H ->]. split; [|reflexivity].
    assert (E : n = Z.land n (Z.ones 1)).
    { change (Z.ones 1) with META_BOUNDARY_BIT. apply Z.bits_inj'. intros k Hk.
      apply (f_equal (fun z => Z.testbit z k)) in H. rewrite Z.ldiff_spec, Z.bits_0 in H. rewrite Z.land_spec.
      destruct (Z.testbit n k), (Z.testbit META_BOUNDARY_BIT k); cbn in *; congruence. }
    rewrite Z.land_ones in E by lia. pose proof (Z.mod_pos_bound n (2 ^ 1) ltac:(lia)).
    change META_BOUNDARY_BIT with 1. change (2 ^ 1) with 2 in *. lia.
Qed.
Print Assumptions claim_for_sandbox_lossless.

(** A host slab pointer (16-byte aligned) round trips through an entry, and
    the entry is not sandbox-owned. *)
Theorem host_entry_round_trip : forall old mp ras, (16 | mp) -> 0 <= mp ->
  let e := assign old (Entry mp ras) in
  get_slab_metadata e = mp /\ e_ras e = ras /\ is_sandbox_owned e = false.
Proof.
  intros old mp ras H1 H2. cbn zeta. split; [apply slab_of_aligned; auto|]. split; [reflexivity|].
  rewrite assign_owned. apply aligned_ptr_not_owned. exact H1.
Qed.
Print Assumptions host_entry_round_trip.

(** A pointer that is only 8-byte aligned would be taken for a sandbox mark. *)
Theorem host_entry_needs_16_alignment_refuted :
  exists mp, (8 | mp) /\ is_sandbox_owned (Entry mp 0) = true.
Proof. exists 0x1008. split; [exists 0x201; reflexivity|reflexivity]. Qed.
Print Assumptions host_entry_needs_16_alignment_refuted.

Example claim_instance :
  get_slab_metadata (claim_for_sandbox (Entry 0x7f0012340011 77)) = 0x7f0012340010.
Proof. reflexivity. Qed.

(** ** C15: replies *)

Ltac verdict :=
  repeat match goal with |- _ /\ _ => split | |- _ <-> _ => split; intros ? end;
  solve [tauto | lia | congruence | exfalso; intuition congruence].

(** The answer to AllocChunk(size, _, ras). *)
Theorem memsvc_alloc_replies : forall c pm b rq pm' b' rs,
  cfg_ok c -> region_ok c (b_shm b) (b_bits b) -> request_words rq -> rq_kind rq = 0 ->
  service c pm b rq = (pm', b', rs) ->
  let size := rq_0 rq in
  let ok := metadata_ok c (box_region b) size (rq_2 rq) in
  (rs_error rs = 3 <-> ~ chunk_size c size) /\
  (rs_error rs = 1 <-> chunk_size c size /\ ~ ok) /\
  (rs_error rs = 2 <-> chunk_size c size /\ ok /\ alloc_range (b_free b) size = None) /\
  (rs_error rs = 0 <-> chunk_size c size /\ ok /\ alloc_range (b_free b) size <> None).
Proof.
  intros c pm b rq pm' b' rs C R (W0 & W1 & W2) K H size ok. unfold service in H. rewrite K in H.
  change (0 =? 0) with true in H. cbv iota in H. unfold service_alloc in H.
  assert (V : is_metaentry_valid c b size (Entry (rq_1 rq) (rq_2 rq)) = true <-> ok).
  { unfold is_metaentry_valid, ok, metadata_ok, queue_ok; cbn [e_ras box_region r_start r_bits].
    rewrite andb_true_iff, orb_true_iff, Z.eqb_eq, Z.leb_le.
    rewrite box_contains by (auto; apply C).
    unfold r_end, region_size; cbn [r_start r_bits]. tauto. }
  fold size in H.
  destruct ((size <? chunk c) || negb (is_pow2 size)) eqn:S.
  { injection H as <- <- <-. cbn [rs_error].
    assert (N : ~ chunk_size c size).
    { intros X. apply size_ok in X; auto. congruence. }
    verdict. }
  apply size_ok in S; auto.
  destruct (is_metaentry_valid c b size (Entry (rq_1 rq) (rq_2 rq))) eqn:E; cbn [negb] in H.
  2:{ injection H as <- <- <-. cbn [rs_error].
      assert (N : ~ ok) by (intros X; apply V in X; congruence).
      verdict. }
  assert (O : ok) by (apply V; reflexivity).
  destruct (alloc_range (b_free b) size) as [[a free']|] eqn:A.
  - injection H as <- <- <-. cbn [rs_error].
    verdict.
  - injection H as <- <- <-. cbn [rs_error].
    verdict.
Qed.
Print Assumptions memsvc_alloc_replies.

(** The answer to DeallocChunk(p, size): the first failing check decides. *)
Theorem memsvc_dealloc_replies : forall c pm b rq pm' b' rs,
  cfg_ok c -> region_ok c (b_shm b) (b_bits b) -> request_words rq -> rq_kind rq = 1 ->
  service c pm b rq = (pm', b', rs) ->
  let p := rq_0 rq in let size := rq_1 rq in
  let inside := b_shm b + 2 * hdr_size c <= p /\ p < b_shm b + region_size b /\
                p + size <= b_shm b + region_size b in
  let owned := forall x, p <= x < p + size -> is_sandbox_owned (pm (x / chunk c)) = true in
  (rs_error rs = 1 <-> ~ inside) /\
  (rs_error rs = 2 <-> inside /\ ~ chunk_size c size) /\
  (rs_error rs = 3 <-> inside /\ chunk_size c size /\ ~ (chunk c | p)) /\
  (rs_error rs = 4 <-> inside /\ chunk_size c size /\ (chunk c | p) /\ ~ owned) /\
  (rs_error rs = 0 <-> inside /\ chunk_size c size /\ (chunk c | p) /\ owned).
Proof.
  intros c pm b rq pm' b' rs C R (W0 & W1 & W2) K H p size inside owned. unfold service in H. rewrite K in H.
  change (1 =? 0) with false in H. change (1 =? 1) with true in H. cbv iota in H.
  unfold service_dealloc in H. fold p size in H, W0, W1.
  assert (I : contains (box_heap c b) p size = true <-> inside) by (apply box_contains; auto).
  destruct (contains (box_heap c b) p size) eqn:E1; cbn [negb] in H.
  2:{ injection H as <- <- <-. cbn [rs_error].
      assert (N : ~ inside) by (intros X; apply I in X; congruence).
      verdict. }
  assert (I' : inside) by (apply I; reflexivity).
  assert (S : is_pow2 size && (chunk c <=? size) = true <-> chunk_size c size).
  { rewrite <- size_ok by exact W1. rewrite orb_false_iff, andb_true_iff, negb_false_iff, Z.ltb_ge, Z.leb_le.
    tauto. }
  destruct (is_pow2 size && (chunk c <=? size)) eqn:E2; cbn [negb] in H.
  2:{ injection H as <- <- <-. cbn [rs_error].
      assert (N : ~ chunk_size c size) by (intros X; apply S in X; congruence).
      verdict. }
  assert (S' : chunk_size c size) by (apply S; reflexivity).
  pose proof (align_down_fix c p) as A.
  destruct (align_down p (chunk c) =? p) eqn:E3; cbn [negb] in H.
  2:{ injection H as <- <- <-. cbn [rs_error].
      assert (N : ~ (chunk c | p)) by (intros X; apply A in X; congruence).
      verdict. }
  assert (A' : (chunk c | p)) by (apply A; reflexivity).
  pose proof (all_owned_bytes c pm p size A' S') as O. fold owned in O.
  destruct (all_sandbox_owned c pm (chunk_steps c size) p) eqn:E4; cbn [negb] in H.
  - assert (O' : owned) by (apply O; reflexivity).
    unfold backend_dealloc in H. injection H as <- <- <-. cbn [rs_error].
    verdict.
  - injection H as <- <- <-. cbn [rs_error].
    assert (N : ~ owned) by (intros X; apply O in X; congruence).
    verdict.
Qed.
Print Assumptions memsvc_dealloc_replies.

(** A request that is answered with an error, or whose kind is unknown,
    changes neither the pagemap nor the allocator. *)
Theorem memsvc_failure_changes_nothing : forall c pm b rq pm' b' rs,
  service c pm b rq = (pm', b', rs) ->
  rs_error rs <> 0 \/ (rq_kind rq <> 0 /\ rq_kind rq <> 1) ->
  pm' = pm /\ b' = b /\ rs_ret rs = 0.
Proof.
  intros c pm b rq pm' b' rs H D. unfold service in H.
  destruct (Z.eqb_spec (rq_kind rq) 0) as [K|K].
  - unfold service_alloc in H.
    destruct ((rq_0 rq <? chunk c) || negb (is_pow2 (rq_0 rq))); [injection H as <- <- <-; auto|].
    destruct (negb (is_metaentry_valid _ _ _ _)); [injection H as <- <- <-; auto|].
    destruct (alloc_range (b_free b) (rq_0 rq)) as [[a f]|]; [|injection H as <- <- <-; auto].
    injection H as <- <- <-. cbn in D. exfalso. destruct D; [congruence|tauto].
  - destruct (Z.eqb_spec (rq_kind rq) 1) as [K1|K1].
    + unfold service_dealloc in H.
      destruct (negb (contains _ _ _)); [injection H as <- <- <-; auto|].
      destruct (negb (is_pow2 _ && _)); [injection H as <- <- <-; auto|].
      destruct (negb (_ =? _)); [injection H as <- <- <-; auto|].
      destruct (negb (all_sandbox_owned _ _ _ _)); [injection H as <- <- <-; auto|].
      unfold backend_dealloc in H. injection H as <- <- <-. cbn in D. exfalso. destruct D; [congruence|tauto].
    + injection H as <- <- <-. auto.
Qed.
Print Assumptions memsvc_failure_changes_nothing.

(** The regions in the books are the sandboxes of the state. *)
Lemma book_region_box c st bk i r : layout c st bk ->
  nth_error (regions bk) i = Some r ->
  exists b, nth_error (g_box st) i = Some b /\ r = box_region b.
Proof.
  intros L H. rewrite <- (L_book _ _ _ L), nth_error_map in H.
  destruct (nth_error (g_box st) i) as [b|]; [|discriminate]. cbn in H. injection H as <-. eauto.
Qed.

Lemma box_book_region c st bk i b : layout c st bk ->
  nth_error (g_box st) i = Some b -> nth_error (regions bk) i = Some (box_region b).
Proof. intros L H. rewrite <- (L_book _ _ _ L), nth_error_map, H. reflexivity. Qed.

(** "No memory" is only answered when no naturally aligned block of that size
    is entirely free. *)
Theorem memsvc_no_memory_means_exhausted : forall c evs st tr i rq st' rs r,
  cfg_ok c -> polite_history c evs -> run c init_state evs = (st, tr) ->
  nth_error (regions (books tr)) i = Some r -> r_live r = true ->
  request_words rq -> rq_kind rq = 0 ->
  step c st (EvReq i rq) = (st', rs) -> rs_error rs = 2 ->
  forall a, (rq_0 rq | a) -> r_start r + chunk c <= a -> a + rq_0 rq <= r_end r ->
  exists x, a <= x < a + rq_0 rq /\ owner (books tr) x <> Nobody.
Proof.
  intros c evs st tr i rq st' rs r C P H Hr Lr Wr K Hs E2 a Al B1 B2.
  pose proof (polite_inv c evs st tr C P H) as I.
  destruct (book_region_box _ _ _ _ _ (I_layout _ _ _ I) Hr) as (b & Hi & ->).
  cbn [box_region r_live] in Lr.
  pose proof (L_ok _ _ _ (I_layout _ _ _ I) i b Hi Lr) as R.
  cbn [step] in Hs. unfold on_box in Hs. rewrite Hi, Lr in Hs.
  destruct (service c (g_pm st) b rq) as [[pm' b'] rs'] eqn:S. injection Hs as <- <-.
  destruct (memsvc_alloc_replies c _ _ _ _ _ _ C R Wr K S) as (_ & _ & X & _).
  apply X in E2 as (CS & _ & N). clear X.
  destruct (I_free _ _ _ I i b Hi Lr) as [Wf Cv].
  assert (M : merged (b_free b)).
  { refine (merged_run c evs init_state empty_book st tr _ _ H i b Hi).
    - intros j b0 Hj. destruct j; discriminate.
    - apply polite_is_hostile. exact P. }
  destruct CS as (n & Hn & Hsz). rewrite Hsz in *.
  assert (Pn : 0 < 2 ^ n) by (apply Z.pow_pos_nonneg; lia).
  unfold r_end in B2; cbn [box_region r_start r_bits] in B1, B2.
  (* all chunks of the block unowned would contradict completeness *)
  assert (D : forall k : nat, Z.of_nat k <= 2 ^ n ->
            (exists x, a <= x < a + Z.of_nat k /\ owner (books tr) x <> Nobody) \/
            (forall x, a <= x < a + Z.of_nat k -> owner (books tr) x = Nobody)).
  { induction k as [|k IH]; intros Hk; [right; intros; lia|].
    destruct IH as [(x & Hx & Ho)|IH]; [lia|left; exists x; split; [lia|exact Ho]|].
    destruct (owner (books tr) (a + Z.of_nat k)) eqn:O.
    - right. intros x Hx. destruct (Z.eq_dec x (a + Z.of_nat k)) as [->|]; [exact O|apply IH; lia].
    - left. exists (a + Z.of_nat k). split; [lia|congruence].
    - left. exists (a + Z.of_nat k). split; [lia|congruence]. }
  destruct (D (Z.to_nat (2 ^ n)) ltac:(lia)) as [X|X]; rewrite Z2Nat.id in X by lia; [exact X|].
  exfalso.
  destruct (merged_complete (Z.of_nat (cbits c)) (b_free b) ltac:(lia) Wf M
             (Z.to_nat (n - Z.of_nat (cbits c))) a) as (b2 & m & Hin & Hm & _).
  - replace (Z.of_nat (cbits c) + Z.of_nat (Z.to_nat (n - Z.of_nat (cbits c)))) with n by lia. exact Al.
  - replace (Z.of_nat (cbits c) + Z.of_nat (Z.to_nat (n - Z.of_nat (cbits c)))) with n by lia.
    intros x Hx. unfold inb in Hx; cbn [fst snd] in Hx. apply Cv.
    unfold region_size. split; [lia|apply X; exact Hx].
  - assert (Hmu : m <= 64).
    { destruct Wf as [W1 _].
      destruct (Z_lt_le_dec 64 m) as [L|L]; [exfalso|exact L].
      assert (P64 : 2 ^ 64 <= 2 ^ m) by (apply Z.pow_le_mono_r; lia).
      assert (Q1 : covers (b_free b) b2).
      { exists (b2, 2 ^ m). split; [exact Hin|unfold inb; cbn [fst snd]; lia]. }
      assert (Q2 : covers (b_free b) (b2 + 2 ^ m - 1)).
      { exists (b2, 2 ^ m). split; [exact Hin|unfold inb; cbn [fst snd]; lia]. }
      apply Cv in Q1 as [Q1 _]. apply Cv in Q2 as [Q2 _].
      destruct R as (R1 & R2 & R3 & R4 & R5). unfold region_size in *. pose proof (chunk_pos c).
      change W with (2 ^ 64) in R5. lia. }
    destruct (remove_block_f_Some_iff 64 (b_free b) n ltac:(lia)) as [_ Y].
    destruct Y as [res Y]; [exists m, b2; split; [lia|exact Hin]|].
    unfold alloc_range in N. congruence.
Qed.
Print Assumptions memsvc_no_memory_means_exhausted.

(** ** C14: granted chunks *)

Theorem memsvc_grants_fresh_aligned_blocks : forall c evs st tr i rq st' rs,
  cfg_ok c -> polite_history c evs -> run c init_state evs = (st, tr) ->
  request_words rq -> rq_kind rq = 0 ->
  step c st (EvReq i rq) = (st', rs) -> rs_error rs = 0 ->
  chunk_size c (rq_0 rq) /\ (rq_0 rq | rs_ret rs) /\
  exists r, nth_error (regions (books tr)) i = Some r /\ r_live r = true /\
    block_within (r_start r + chunk c) (r_end r) (rs_ret rs) (rq_0 rq) /\
    forall x, rs_ret rs <= x < rs_ret rs + rq_0 rq -> owner (books tr) x = Nobody.
Proof.
  intros c evs st tr i rq st' rs C P H Wr K Hs E0.
  pose proof (polite_inv c evs st tr C P H) as I.
  cbn [step] in Hs. unfold on_box in Hs.
  destruct (nth_error (g_box st) i) as [b|] eqn:Hi; [|injection Hs as <- <-; discriminate].
  destruct (b_live b) eqn:Lr; [|injection Hs as <- <-; discriminate].
  pose proof (L_ok _ _ _ (I_layout _ _ _ I) i b Hi Lr) as R.
  destruct (service c (g_pm st) b rq) as [[pm' b'] rs'] eqn:S. injection Hs as <- <-.
  apply service_effect in S; auto. destruct S as [rs R0 R1|a free' K0 CS V A|K1 CS Ca B1 B2 OB].
  - exfalso. destruct (R1 E0). congruence.
  - cbn [rs_ret].
    destruct (inv_take c st (books tr) i b (rq_0 rq) a free'
               (claim_for_sandbox (Entry (rq_1 rq) (rq_2 rq))) Sandbox) as (T1 & T2 & T3 & T4 & _); auto.
    { discriminate. } { rewrite claim_owned. tauto. }
    split; [exact CS|]. split; [exact T1|]. exists (box_region b).
    split; [apply (box_book_region c st); auto; apply I|]. split; [exact Lr|].
    split; [|exact T4]. intros x Hx. unfold r_end; cbn [box_region r_start r_bits].
    unfold region_size in T3. lia.
  - congruence.
Qed.
Print Assumptions memsvc_grants_fresh_aligned_blocks.

(** The same for the host's own chunks. *)
Theorem host_chunks_fresh_aligned_blocks : forall c evs st tr i size ras mp st' rs,
  cfg_ok c -> polite_history c evs -> run c init_state evs = (st, tr) ->
  chunk_size c size -> (16 | mp) -> 0 <= mp ->
  step c st (EvHostAlloc i size ras mp) = (st', rs) -> rs_error rs = 0 ->
  (size | rs_ret rs) /\
  exists r, nth_error (regions (books tr)) i = Some r /\ r_live r = true /\
    block_within (r_start r + chunk c) (r_end r) (rs_ret rs) size /\
    (forall x, rs_ret rs <= x < rs_ret rs + size -> owner (books tr) x = Nobody) /\
    (forall x, rs_ret rs <= x < rs_ret rs + size ->
       get_slab_metadata (g_pm st' (x / chunk c)) = mp /\ e_ras (g_pm st' (x / chunk c)) = ras).
Proof.
  intros c evs st tr i size ras mp st' rs C P H CS M1 M2 Hs E0.
  pose proof (polite_inv c evs st tr C P H) as I.
  cbn [step] in Hs. unfold on_box in Hs.
  destruct (nth_error (g_box st) i) as [b|] eqn:Hi; [|injection Hs as <- <-; discriminate].
  destruct (b_live b) eqn:Lr; [|injection Hs as <- <-; discriminate].
  unfold host_alloc in Hs.
  destruct (alloc_range (b_free b) size) as [[a free']|] eqn:A; [|injection Hs as <- <-; discriminate].
  injection Hs as <- <-. cbn [rs_ret g_pm].
  destruct (inv_take c st (books tr) i b size a free' (Entry mp ras) Host)
    as (T1 & T2 & T3 & T4 & _); auto.
  { discriminate. } { rewrite aligned_ptr_not_owned by exact M1. split; discriminate. }
  split; [exact T1|]. exists (box_region b).
  split; [apply (box_book_region c st); auto; apply I|]. split; [exact Lr|].
  split; [intros x Hx; unfold r_end; cbn [box_region r_start r_bits]; unfold region_size in T3; lia|].
  split; [exact T4|].
  intros x Hx. rewrite set_metaentry_spec; auto.
  - rewrite (proj2 (inblk_true a size x) Hx).
    split; [|reflexivity]. apply slab_of_aligned; assumption.
  - destruct CS as (n & Hn & ->). apply Z.divide_trans with (2 ^ n); [apply divide_pow2; lia|exact T1].
Qed.
Print Assumptions host_chunks_fresh_aligned_blocks.

(** ** C13: isolation *)

(** Whatever all sandboxes did before (including misaligned and partial
    frees), a request from sandbox i changes no pagemap entry outside region i
    and no other sandbox's allocator. *)
Theorem memsvc_other_regions_untouched : forall c evs st tr i rq st' rs,
  cfg_ok c -> hostile_history c evs -> run c init_state evs = (st, tr) ->
  request_words rq -> step c st (EvReq i rq) = (st', rs) ->
  (forall x,
     (forall r, nth_error (regions (books tr)) i = Some r -> r_live r = true ->
                ~ (r_start r <= x < r_end r)) ->
     g_pm st' (x / chunk c) = g_pm st (x / chunk c)) /\
  (forall j, j <> i -> nth_error (g_box st') j = nth_error (g_box st) j).
Proof.
  intros c evs st tr i rq st' rs C P H Wr Hs.
  pose proof (hostile_inv c evs st tr C P H) as I. pose proof (H_layout _ _ _ _ I) as L.
  cbn [step] in Hs. unfold on_box in Hs.
  destruct (nth_error (g_box st) i) as [b|] eqn:Hi; [|injection Hs as <- <-; auto].
  destruct (b_live b) eqn:Lr; [|injection Hs as <- <-; auto].
  pose proof (L_ok _ _ _ L i b Hi Lr) as R.
  destruct (service c (g_pm st) b rq) as [[pm' b'] rs'] eqn:S. injection Hs as <- <-. cbn [g_pm g_box].
  split.
  - intros x Hx. specialize (Hx _ (box_book_region _ _ _ _ _ L Hi) Lr).
    unfold r_end in Hx; cbn [box_region r_start r_bits] in Hx.
    destruct (region_rough_pre _ _ _ R) as [P1 P2].
    apply service_effect in S; auto. destruct S as [rs R0 R1|a free' K0 CS V A|K1 CS Ca B1 B2 OB]; auto.
    + pose proof CS as (n & Hn & Hsz). rewrite Hsz in A.
      destruct (remove_block_f_rough _ _ _ P1 P2 _ _ _ _ _ Hn (H_free _ _ _ _ I i b Hi Lr) A) as [F1 F2].
      destruct (rough_region _ _ _ _ R F2) as (G1 & G2 & G3). rewrite <- Hsz in G3.
      rewrite set_metaentry_spec by auto.
      destruct (inblk a (rq_0 rq) x) eqn:Q; [|reflexivity]. apply inblk_true in Q.
      unfold region_size in G3. lia.
    + rewrite set_metaentry_spec by auto.
      destruct (inblk _ _ x) eqn:Q; [|reflexivity]. apply inblk_true in Q.
      unfold region_size in B2. pose proof (chunk_pos c). lia.
  - intros j Hj. apply upd_other. congruence.
Qed.
Print Assumptions memsvc_other_regions_untouched.

(** As long as every free was naturally aligned, no sequence of requests from
    any sandboxes changes the entry of a byte the host holds, or of a byte in a
    header chunk. *)
Theorem memsvc_host_entries_survive : forall c evs st tr reqs st2 tr2,
  cfg_ok c -> polite_history c evs -> run c init_state evs = (st, tr) ->
  (forall ev, In ev reqs -> exists i rq, ev = EvReq i rq) ->
  admissible (polite_ok c) c st (books tr) reqs -> run c st reqs = (st2, tr2) ->
  forall x,
    (owner (books tr) x = Host \/
     (exists r, In r (regions (books tr)) /\ r_live r = true /\
                r_start r <= x < r_start r + chunk c)) ->
    g_pm st2 (x / chunk c) = g_pm st (x / chunk c).
Proof.
  intros c evs st tr reqs st2 tr2 C P H Hreq Ad Hr x Hx.
  pose proof (polite_inv c evs st tr C P H) as I. clear P H.
  set (bk := books tr) in *. clearbody bk. clear tr evs.
  revert st bk st2 tr2 I Hreq Ad Hr Hx.
  induction reqs as [|ev reqs IH]; intros st bk st2 tr2 I Hreq Ad Hr Hx; cbn in Hr.
  { injection Hr as <- <-. reflexivity. }
  cbn in Ad. destruct Ad as [Pe Ad].
  destruct (step c st ev) as [st1 rs] eqn:S. destruct (run c st1 reqs) as [st3 tr3] eqn:E.
  injection Hr as <- <-.
  pose proof (inv_step _ _ _ _ _ _ C I Pe S) as I1.
  destruct (Hreq ev (or_introl eq_refl)) as (i & rq & ->).
  assert (One : g_pm st1 (x / chunk c) = g_pm st (x / chunk c) /\
                (owner (note bk (EvReq i rq, rs)) x = Host \/
                 exists r, In r (regions (note bk (EvReq i rq, rs))) /\ r_live r = true /\
                   r_start r <= x < r_start r + chunk c)).
  { cbn [step] in S. unfold on_box in S.
    destruct (nth_error (g_box st) i) as [b|] eqn:Hi;
      [|injection S as <- <-; cbn [note]; auto].
    destruct (b_live b) eqn:Lr; [|injection S as <- <-; cbn [note]; auto].
    pose proof (L_ok _ _ _ (I_layout _ _ _ I) i b Hi Lr) as R.
    destruct Pe as [Wr Pl]. cbn [hostile_ok] in Wr.
    destruct (service c (g_pm st) b rq) as [[pm' b'] rs'] eqn:Sv. injection S as <- <-. cbn [g_pm].
    (* bytes of live header chunks are not in anybody's blocks *)
    assert (Out : forall a size, b_shm b + chunk c <= a -> a + size <= b_shm b + region_size b ->
              (forall y, a <= y < a + size -> owner bk y <> Host) -> inblk a size x = false).
    { intros a size B1 B2 NH. destruct (inblk a size x) eqn:Q; [exfalso|reflexivity].
      apply inblk_true in Q. destruct Hx as [Hx|(r & Hin & Lv & Rx)].
      - exact (NH x Q Hx).
      - apply In_nth_error in Hin as [j Hj].
        destruct (book_region_box _ _ _ _ _ (I_layout _ _ _ I) Hj) as (b2 & Hj2 & ->).
        cbn [box_region r_start r_live] in *.
        destruct (Nat.eq_dec i j) as [->|Ne].
        + rewrite Hi in Hj2. injection Hj2 as <-. lia.
        + pose proof (L_apart _ _ _ (I_layout _ _ _ I) i j b b2 Hi Hj2 Lr Lv Ne) as Ap.
          pose proof (L_ok _ _ _ (I_layout _ _ _ I) j b2 Hj2 Lv) as (Q1 & _).
          assert (chunk c <= region_size b2) by (apply Z.pow_le_mono_r; lia).
          unfold apart in Ap. pose proof (chunk_pos c). lia. }
    apply service_effect in Sv; auto. destruct Sv as [rs R0 R1|a free' K0 CS V A|K1 CS Ca B1 B2 OB].
    - split; [reflexivity|]. cbn [note]. destruct (Z.eqb_spec (rs_error rs) 0) as [Z0|]; [|auto].
      destruct (R1 Z0) as [N0 N1]. apply Z.eqb_neq in N0, N1. rewrite N0, N1. auto.
    - destruct (inv_take c st bk i b (rq_0 rq) a free'
               (claim_for_sandbox (Entry (rq_1 rq) (rq_2 rq))) Sandbox) as (T1 & T2 & T3 & T4 & _); auto.
      { discriminate. } { rewrite claim_owned. tauto. }
      assert (O : inblk a (rq_0 rq) x = false).
      { apply Out; auto. intros y Hy. rewrite (T4 y Hy). discriminate. }
      assert (Ca : (chunk c | a)).
      { destruct CS as (n & Hn & Hsz). rewrite Hsz in T1.
        apply Z.divide_trans with (2 ^ n); [apply divide_pow2; lia|exact T1]. }
      rewrite set_metaentry_spec by auto. rewrite O. split; [reflexivity|].
      cbn [note rs_error rs_ret]. rewrite Z.eqb_refl, K0, Z.eqb_refl. cbn [owner regions].
      rewrite set_owner_eq, O. exact Hx.
    - assert (O : inblk (rq_0 rq) (rq_1 rq) x = false).
      { apply Out; auto. intros y Hy. apply OB in Hy. apply (I_mark _ _ _ I) in Hy. congruence. }
      rewrite set_metaentry_spec by auto. rewrite O. split; [reflexivity|].
      cbn [note rs_error rs_ret]. rewrite Z.eqb_refl, K1. cbn [Z.eqb Pos.eqb owner regions].
      rewrite set_owner_eq, O. exact Hx. }
  destruct One as [O1 O2]. rewrite <- O1.
  eapply IH; [exact I1| |exact Ad|exact E|exact O2].
  intros e He. apply Hreq. right. exact He.
Qed.
Print Assumptions memsvc_host_entries_survive.

(** In such histories the ownership bit in the pagemap is exactly the books. *)
Theorem memsvc_mark_is_ownership : forall c evs st tr x,
  cfg_ok c -> polite_history c evs -> run c init_state evs = (st, tr) ->
  (is_sandbox_owned (g_pm st (x / chunk c)) = true <-> owner (books tr) x = Sandbox).
Proof.
  intros c evs st tr x C P H. symmetry. apply (I_mark _ _ _ (polite_inv c evs st tr C P H)).
Qed.
Print Assumptions memsvc_mark_is_ownership.

(** ** C16: message queues *)

(** In every history, every sandbox-owned entry belongs to a live sandbox and
    its message queue is null or lies in that sandbox's heap. *)
Theorem memsvc_queues_stay_inside : forall c evs st tr x,
  cfg_ok c -> hostile_history c evs -> run c init_state evs = (st, tr) ->
  is_sandbox_owned (g_pm st (x / chunk c)) = true ->
  exists i r, nth_error (regions (books tr)) i = Some r /\ r_live r = true /\
    r_start r <= x < r_end r /\
    let q := remote_of c (e_ras (g_pm st (x / chunk c))) in
    q = 0 \/ block_within (r_start r + 2 * hdr_size c) (r_end r) q (remote_size c).
Proof.
  intros c evs st tr x C P H Ho.
  pose proof (hostile_inv c evs st tr C P H) as I.
  destruct (H_mark _ _ _ _ I x Ho) as (i & b & Hi & Lv & Rx & Q).
  exists i, (box_region b). split; [apply (box_book_region c st); auto; apply I|].
  split; [exact Lv|]. split; [exact Rx|]. cbn zeta. destruct Q as [Q|[Q1 Q2]]; [auto|right].
  intros y Hy. unfold r_end; cbn [box_region r_start r_bits]. unfold region_size in Q2. lia.
Qed.
Print Assumptions memsvc_queues_stay_inside.

(** A granted block carries exactly the submitted metadata, marked; its queue
    is not the host's (which lives in the header) and its size class fits. *)
Theorem memsvc_grant_installs_checked_entry : forall c evs st tr i rq st' rs,
  cfg_ok c -> hostile_history c evs -> run c init_state evs = (st, tr) ->
  request_words rq -> rq_kind rq = 0 ->
  step c st (EvReq i rq) = (st', rs) -> rs_error rs = 0 ->
  exists r, nth_error (regions (books tr)) i = Some r /\ r_live r = true /\
    metadata_ok c r (rq_0 rq) (rq_2 rq) /\
    ~ (r_start r <= remote_of c (rq_2 rq) < r_start r + hdr_size c) /\
    forall x, rs_ret rs <= x < rs_ret rs + rq_0 rq ->
      let e := g_pm st' (x / chunk c) in
      is_sandbox_owned e = true /\ e_ras e = rq_2 rq /\
      get_slab_metadata e = get_slab_metadata (Entry (rq_1 rq) (rq_2 rq)).
Proof.
  intros c evs st tr i rq st' rs C P H Wr K Hs E0.
  pose proof (hostile_inv c evs st tr C P H) as I. pose proof (H_layout _ _ _ _ I) as L.
  cbn [step] in Hs. unfold on_box in Hs.
  destruct (nth_error (g_box st) i) as [b|] eqn:Hi; [|injection Hs as <- <-; discriminate].
  destruct (b_live b) eqn:Lr; [|injection Hs as <- <-; discriminate].
  pose proof (L_ok _ _ _ L i b Hi Lr) as R.
  destruct (service c (g_pm st) b rq) as [[pm' b'] rs'] eqn:S. injection Hs as <- <-.
  pose proof S as S2.
  apply service_effect in S; auto. destruct S as [rs R0 R1|a free' K0 CS V A|K1 CS Ca B1 B2 OB].
  - exfalso. destruct (R1 E0). congruence.
  - exists (box_region b). split; [apply (box_book_region c st); auto|]. split; [exact Lr|].
    destruct (memsvc_alloc_replies c _ _ _ _ _ _ C R Wr K S2) as (_ & _ & _ & X).
    apply X in E0 as (_ & MO & _). split; [exact MO|]. split.
    + destruct MO as [[Q|(Q & _ & _)] _]; cbn [box_region r_start] in *.
      * rewrite Q. destruct R as (R1 & R2 & R3 & _). lia.
      * destruct C as (C1 & C2 & _). lia.
    + cbn [rs_ret g_pm]. intros x Hx.
      destruct (region_rough_pre _ _ _ R) as [P1 P2].
      pose proof CS as (n & Hn & Hsz). rewrite Hsz in A.
      destruct (remove_block_f_rough _ _ _ P1 P2 _ _ _ _ _ Hn (H_free _ _ _ _ I i b Hi Lr) A) as [F1 F2].
      destruct (rough_region _ _ _ _ R F2) as (G1 & G2 & G3).
      rewrite set_metaentry_spec by auto. rewrite (proj2 (inblk_true _ _ x) Hx).
      cbn zeta. split; [rewrite assign_owned; apply claim_owned|]. split; [reflexivity|].
      unfold get_slab_metadata, assign, claim_for_sandbox; cbn [e_meta].
      apply Z.bits_inj'. intros k Hk.
      rewrite !Z.ldiff_spec, Z.lor_spec, Z.ldiff_spec, Z.land_spec, !Z.lor_spec.
      destruct (Z.testbit (rq_1 rq) k), (Z.testbit SANDBOX_BIT k), (Z.testbit META_BOUNDARY_BIT k),
        (Z.testbit (e_meta (g_pm st (x / chunk c))) k); reflexivity.
  - congruence.
Qed.
Print Assumptions memsvc_grant_installs_checked_entry.

(** ** C18: destruction *)

(** After ~Library every entry of the region is clear and every other entry is
    unchanged, whatever the pagemap contained. *)
Theorem library_destroy_clears_region : forall c pm b x,
  cfg_ok c -> region_ok c (b_shm b) (b_bits b) ->
  let pm' := fst (library_destroy c pm b) in
  (b_shm b <= x < b_shm b + region_size b -> entry_is_clear (pm' (x / chunk c))) /\
  (~ (b_shm b <= x < b_shm b + region_size b) -> pm' (x / chunk c) = pm (x / chunk c)).
Proof.
  intros c pm b x C R pm'. unfold pm'. rewrite library_destroy_pm by auto. split.
  - intros Hx. rewrite (proj2 (inblk_true _ _ x) Hx). split; [apply assign_owned|].
    split; [|reflexivity]. unfold get_slab_metadata, assign; cbn [e_meta empty_entry].
    apply Z.bits_inj'. intros k Hk.
    rewrite Z.ldiff_spec, Z.lor_spec, Z.ldiff_spec, Z.land_spec, Z.lor_spec, !Z.bits_0.
    destruct (Z.testbit SANDBOX_BIT k), (Z.testbit META_BOUNDARY_BIT k),
      (Z.testbit (e_meta (pm (x / chunk c))) k); reflexivity.
  - intros Hx. destruct (inblk _ _ x) eqn:Q; [|reflexivity]. apply inblk_true in Q. tauto.
Qed.
Print Assumptions library_destroy_clears_region.

(** After any history of hostile requests, every pointer that ~Library passes
    to `delete` is one the host itself stored. *)
Theorem library_destroy_deletes_host_pointers_only : forall c evs st tr i b p,
  cfg_ok c -> hostile_history c evs -> run c init_state evs = (st, tr) ->
  nth_error (g_box st) i = Some b -> b_live b = true ->
  In p (snd (library_destroy c (g_pm st) b)) -> In p (host_pointers evs).
Proof.
  intros c evs st tr i b p C P H Hi Lv Hp.
  pose proof (hostile_inv c evs st tr C P H) as I.
  pose proof (L_ok _ _ _ (H_layout _ _ _ _ I) i b Hi Lv) as R.
  rewrite library_destroy_eq in Hp by auto.
  apply destroy_loop_del in Hp as (j & _ & D1 & D2 & D3 & ->).
  pose proof (chunk_pos c) as Pc.
  pose proof (H_ptr _ _ _ _ I (j * chunk c)) as Q. cbn zeta in Q. rewrite Z.div_mul in Q by lia.
  destruct (Q D2 D1); [contradiction|assumption].
Qed.
Print Assumptions library_destroy_deletes_host_pointers_only.

(** ** Concrete configuration and histories *)

Definition ex_cfg : cfg :=
  Cfg 14 2048 1024 (fun ras => wrap (Z.ldiff ras 255)) (fun ras => 16 * Z.land ras 127) 128.
Definition ex_base : Z := 0x7f0040000000.
Definition ck : Z := 16384.

Example ex_cfg_ok : cfg_ok ex_cfg.
Proof.
  unfold cfg_ok, ex_cfg, chunk; cbn [cbits hdr_size remote_size remote_of backend_marker].
  split; [lia|]. split; [lia|]. split; [vm_compute; discriminate|].
  split; [split; [lia|reflexivity]|]. split; [reflexivity|].
  intros ras. apply wrap_range.
Qed.

Lemma adm_cons (P : book -> event -> Prop) c st bk ev r rs :
  P bk ev -> snd (step c st ev) = rs ->
  admissible P c (fst (step c st ev)) (note bk (ev, rs)) r -> admissible P c st bk (ev :: r).
Proof. intros A B D. cbn. split; [exact A|]. destruct (step c st ev). cbn in *. subst. exact D. Qed.

Lemma ck_size n s : Z.of_nat (cbits ex_cfg) <= n -> s = 2 ^ n -> chunk_size ex_cfg s.
Proof. intros H ->. exists n. auto. Qed.

Ltac words := cbn [hostile_ok]; unfold request_words, is_word; cbn [rq_0 rq_1 rq_2];
  repeat split; first [reflexivity | vm_compute; discriminate].
Ltac nextev := eapply adm_cons; [|vm_compute; reflexivity|cbn [note rs_error rs_ret rq_kind rq_0 rq_1 Z.eqb Pos.eqb owner regions]].

Definition alloc_rq n := Request 0 (n * ck) 0 0 0.
Definition free_rq a n := Request 1 (ex_base + a * ck) (n * ck) 0 0.

(** A polite history with one sandbox of 16 chunks: both sides allocate and
    free. *)
Definition polite_ex : list event :=
  [EvCreate ex_base 18; EvReq 0 (alloc_rq 2); EvHostAlloc 0 ck 0x7f0040004000 0x5000;
   EvReq 0 (alloc_rq 1); EvReq 0 (free_rq 2 2); EvHostFree 0 (ex_base + ck) ck].

Example polite_ex_ok : polite_history ex_cfg polite_ex.
Proof.
  unfold polite_history, polite_ex, alloc_rq, free_rq.
  nextev.
  { split; [|exact I]. cbn [hostile_ok fresh_region]. unfold fresh_region, ex_base, W.
    cbn [cbits ex_cfg]. repeat split; try lia.
    - exists (0x7f0040000000 / 2 ^ 18). reflexivity.
    - intros r []. }
  nextev. { split; [words|intros; discriminate]. }
  nextev. { split; [|exact I]. split; [apply (ck_size 14); [cbn; lia|reflexivity]|]. split; [exists 0x500; reflexivity|lia]. }
  nextev. { split; [words|intros; discriminate]. }
  nextev. { split; [words|]. intros _. cbn. exists (ex_base / (2 * ck) + 1). reflexivity. }
  nextev.
  { split.
    - cbn [hostile_ok]. split; [apply (ck_size 14); [cbn; lia|reflexivity]|].
      split; [exists ((ex_base + ck) / ck); reflexivity|].
      eexists. split; [reflexivity|]. cbn. unfold r_end, ex_base, ck. cbn. lia.
    - split; [exists ((ex_base + ck) / ck); reflexivity|].
      intros x Hx. unfold set_owner, ex_base, ck in *. cbn [owner empty_book].
      repeat match goal with |- context [if ?b then _ else _] => destruct b eqn:?; try lia end; reflexivity. }
  exact I.
Qed.

Example polite_ex_replies :
  map (fun er => rs_error (snd er)) (snd (run ex_cfg init_state polite_ex)) = [0; 0; 0; 0; 0; 0] /\
  map (fun er => rs_ret (snd er)) (snd (run ex_cfg init_state polite_ex))
    = [0; ex_base + 2 * ck; ex_base + ck; ex_base + 4 * ck; 0; 0].
Proof. vm_compute. auto. Qed.

(** ** C17: limits *)

(** Chunks 5..8 belong to the sandbox, chunk 4 to the host.  The sandbox frees
    5-6 and 7-8 as two misaligned blocks of two chunks; the allocator merges
    them to 4-7; the next grant of four chunks includes the host's chunk. *)
Definition hostile_ex : list event :=
  [EvCreate ex_base 18; EvReq 0 (alloc_rq 2); EvReq 0 (alloc_rq 1);
   EvHostAlloc 0 ck 0x7f0040004000 0x5000;
   EvReq 0 (alloc_rq 1); EvReq 0 (alloc_rq 1); EvReq 0 (alloc_rq 1); EvReq 0 (alloc_rq 1);
   EvReq 0 (free_rq 5 2); EvReq 0 (free_rq 7 2)].

Example hostile_ex_ok : hostile_history ex_cfg hostile_ex.
Proof.
  unfold hostile_history, hostile_ex, alloc_rq, free_rq.
  nextev.
  { cbn [hostile_ok fresh_region]. unfold fresh_region, ex_base, W.
    cbn [cbits ex_cfg]. repeat split; try lia.
    - exists (0x7f0040000000 / 2 ^ 18). reflexivity.
    - intros r []. }
  nextev. { words. } nextev. { words. }
  nextev. { split; [apply (ck_size 14); [cbn; lia|reflexivity]|]. split; [exists 0x500; reflexivity|lia]. }
  do 6 (nextev; [words|]). exact I.
Qed.

Theorem memsvc_misaligned_free_captures_host_chunk_refuted :
  exists c evs st tr i rq st' rs x,
    cfg_ok c /\ hostile_history c evs /\ run c init_state evs = (st, tr) /\ request_words rq /\
    owner (books tr) x = Host /\
    get_slab_metadata (g_pm st (x / chunk c)) = 0x5000 /\
    step c st (EvReq i rq) = (st', rs) /\ rs_error rs = 0 /\
    rs_ret rs <= x < rs_ret rs + rq_0 rq /\
    is_sandbox_owned (g_pm st' (x / chunk c)) = true.
Proof.
  exists ex_cfg, hostile_ex, (fst (run ex_cfg init_state hostile_ex)),
    (snd (run ex_cfg init_state hostile_ex)), 0%nat, (alloc_rq 4).
  eexists (fst (step ex_cfg (fst (run ex_cfg init_state hostile_ex)) (EvReq 0 (alloc_rq 4)))),
    (snd (step ex_cfg (fst (run ex_cfg init_state hostile_ex)) (EvReq 0 (alloc_rq 4)))),
    (ex_base + 4 * ck).
  split; [exact ex_cfg_ok|]. split; [exact hostile_ex_ok|].
  split; [destruct (run ex_cfg init_state hostile_ex); reflexivity|].
  split; [words|]. split; [vm_compute; reflexivity|]. split; [vm_compute; reflexivity|].
  split; [destruct (step ex_cfg (fst (run ex_cfg init_state hostile_ex)) (EvReq 0 (alloc_rq 4))); reflexivity|].
  split; [vm_compute; reflexivity|]. split; [|vm_compute; reflexivity].
  vm_compute. split; [discriminate|reflexivity].
Qed.
Print Assumptions memsvc_misaligned_free_captures_host_chunk_refuted.

(** The same trick one step lower makes the host allocate its own memory over
    the header of the shared region: chunks 1-2 and 3-4 freed misaligned. *)
Definition hostile_ex2 : list event :=
  [EvCreate ex_base 18; EvReq 0 (alloc_rq 1); EvReq 0 (alloc_rq 2); EvReq 0 (alloc_rq 4);
   EvReq 0 (free_rq 1 2); EvReq 0 (free_rq 3 2)].

Theorem memsvc_misaligned_free_exposes_header_refuted :
  exists evs st tr st' rs,
    hostile_history ex_cfg evs /\ run ex_cfg init_state evs = (st, tr) /\
    step ex_cfg st (EvHostAlloc 0 ck 0x7f0040004000 0x5000) = (st', rs) /\
    rs_error rs = 0 /\ rs_ret rs = ex_base.
Proof.
  exists hostile_ex2, (fst (run ex_cfg init_state hostile_ex2)),
    (snd (run ex_cfg init_state hostile_ex2)),
    (fst (step ex_cfg (fst (run ex_cfg init_state hostile_ex2)) (EvHostAlloc 0 ck 0x7f0040004000 0x5000))),
    (snd (step ex_cfg (fst (run ex_cfg init_state hostile_ex2)) (EvHostAlloc 0 ck 0x7f0040004000 0x5000))).
  split.
  { unfold hostile_history, hostile_ex2, alloc_rq, free_rq. nextev.
    { cbn [hostile_ok fresh_region]. unfold fresh_region, ex_base, W.
      cbn [cbits ex_cfg]. repeat split; try lia.
      - exists (0x7f0040000000 / 2 ^ 18). reflexivity.
      - intros r []. }
    do 5 (nextev; [words|]). exact I. }
  split; [destruct (run ex_cfg init_state hostile_ex2); reflexivity|].
  split; [destruct (step ex_cfg (fst (run ex_cfg init_state hostile_ex2)) _); reflexivity|].
  split; vm_compute; reflexivity.
Qed.
Print Assumptions memsvc_misaligned_free_exposes_header_refuted.

(** An unknown request kind is answered with success. *)
Theorem memsvc_unknown_kind_succeeds : forall c pm b rq,
  rq_kind rq <> 0 -> rq_kind rq <> 1 -> service c pm b rq = (pm, b, Response 0 0).
Proof.
  intros c pm b rq H0 H1. unfold service. apply Z.eqb_neq in H0, H1. rewrite H0, H1. reflexivity.
Qed.
Print Assumptions memsvc_unknown_kind_succeeds.

(** C48: how often a pointer is deleted, chunk by chunk. *)
Lemma destroy_loop_count c mp : forall n a pm,
  (forall k, 0 <= k < Z.of_nat n -> let e := pm (a / chunk c + k) in
     is_backend_owned c e = false /\ is_sandbox_owned e = false /\
     remote_of c (e_ras e) <> 0 /\ get_slab_metadata e = mp) ->
  snd (destroy_loop c n a pm) = repeat mp n.
Proof.
  induction n as [|n IH]; intros a pm H; cbn [destroy_loop]; [reflexivity|].
  destruct (destroy_loop c n (a + chunk c) (pm_set pm (a / chunk c) empty_entry)) as [pm' ds] eqn:E.
  destruct (H 0) as (A & B & D & F); [lia|]. rewrite Z.add_0_r in A, B, D, F.
  rewrite A, B, F. apply Z.eqb_neq in D. rewrite D. cbn [negb andb app snd repeat]. f_equal.
  apply (f_equal snd) in E. cbn [snd] in E. rewrite <- E. apply IH. intros k K.
  replace (a + chunk c) with (a + 1 * chunk c) by ring. rewrite div_shift. unfold pm_set.
  destruct (Z.eqb_spec (a / chunk c + 1 + k) (a / chunk c)); [lia|].
  replace (a / chunk c + 1 + k) with (a / chunk c + (k + 1)) by ring. apply H. lia.
Qed.
Lemma destroy_loop_split c : forall n m a pm,
  snd (destroy_loop c (n + m) a pm)
  = snd (destroy_loop c n a pm) ++ snd (destroy_loop c m (a + Z.of_nat n * chunk c) (fst (destroy_loop c n a pm))).
Proof.
  induction n as [|n IH]; intros m a pm.
  - cbn [Nat.add destroy_loop fst snd app]. f_equal. f_equal. cbn. lia.
  - cbn [Nat.add destroy_loop]. specialize (IH m (a + chunk c) (pm_set pm (a / chunk c) empty_entry)).
    destruct (destroy_loop c (n + m) (a + chunk c) (pm_set pm (a / chunk c) empty_entry)) as [pm1 d1].
    destruct (destroy_loop c n (a + chunk c) (pm_set pm (a / chunk c) empty_entry)) as [pm2 d2].
    cbn [fst snd] in *. rewrite IH, app_assoc.
    replace (a + chunk c + Z.of_nat n * chunk c) with (a + Z.of_nat (S n) * chunk c) by lia. reflexivity.
Qed.

Lemma destroy_count c pm b a n mp :
  cfg_ok c -> region_ok c (b_shm b) (b_bits b) ->
  (chunk c | a) -> b_shm b <= a -> a + Z.of_nat n * chunk c <= b_shm b + region_size b ->
  (forall x, a <= x < a + Z.of_nat n * chunk c -> let e := pm (x / chunk c) in
     is_sandbox_owned e = false /\ get_slab_metadata e = mp /\ remote_of c (e_ras e) <> 0 /\
     is_backend_owned c e = false) ->
  (n <= count_occ Z.eq_dec (snd (library_destroy c pm b)) mp)%nat.
Proof.
  intros C R Al A1 A2 Hx. pose proof (chunk_pos c) as Pc.
  rewrite library_destroy_eq by auto.
  destruct (destroy_steps c _ _ C R) as (_ & D2 & D3 & D4). fold (region_size b) in D3.
  destruct Al as [q ->]. set (s := b_shm b / chunk c) in *. set (z := region_size b / chunk c) in *.
  assert (Q : s <= q /\ q + Z.of_nat n <= s + z) by nia. destruct Q as [Q1 Q2].
  set (n1 := Z.to_nat (q - s)). set (n3 := Z.to_nat (s + z - (q + Z.of_nat n))).
  replace (Z.to_nat z) with (n1 + (n + n3))%nat by lia.
  rewrite !destroy_loop_split, !count_occ_app.
  assert (M : snd (destroy_loop c n (b_shm b + hdr_size c + Z.of_nat n1 * chunk c)
                     (fst (destroy_loop c n1 (b_shm b + hdr_size c) pm))) = repeat mp n).
  { apply destroy_loop_count. intros k K. rewrite div_shift, D2. fold s.
    rewrite destroy_loop_pm, D2. fold s.
    replace (s + Z.of_nat n1 + k) with (q + k) by lia.
    destruct (Z.leb_spec s (q + k)); [|lia].
    destruct (Z.ltb_spec (q + k) (s + Z.of_nat n1)); [lia|]. cbn [andb].
    destruct (Hx ((q + k) * chunk c)) as (O & M1 & M2 & M3); [nia|].
    rewrite Z.div_mul in O, M1, M2, M3 by lia. repeat split; auto. }
  rewrite M. rewrite count_occ_repeat_eq by auto. lia.
Qed.

(** C48: the pointer of a slab the host holds when the Library is destroyed is
    deleted at least once per chunk of the slab. *)
Theorem library_destroy_deletes_once_per_chunk : forall c evs st tr i b a n mp,
  cfg_ok c -> polite_history c evs -> run c init_state evs = (st, tr) ->
  nth_error (g_box st) i = Some b -> b_live b = true ->
  (chunk c | a) -> b_shm b <= a -> a + Z.of_nat n * chunk c <= b_shm b + region_size b ->
  (forall x, a <= x < a + Z.of_nat n * chunk c ->
     owner (books tr) x = Host /\
     let e := g_pm st (x / chunk c) in
     get_slab_metadata e = mp /\ remote_of c (e_ras e) <> 0 /\ is_backend_owned c e = false) ->
  (n <= count_occ Z.eq_dec (snd (library_destroy c (g_pm st) b)) mp)%nat.
Proof.
  intros c evs st tr i b a n mp C P H Hi Lv Al A1 A2 Hx.
  pose proof (L_ok _ _ _ (I_layout _ _ _ (polite_inv c evs st tr C P H)) i b Hi Lv) as R.
  eapply destroy_count; eauto. intros x X e. destruct (Hx x X) as (O & M).
  split; [|exact M].
  destruct (is_sandbox_owned e) eqn:E; auto.
  apply (memsvc_mark_is_ownership c evs st tr _ C P H) in E. congruence.
Qed.
Print Assumptions library_destroy_deletes_once_per_chunk.

Lemma run_snoc c : forall evs st st1 tr ev st2 rs,
  run c st evs = (st1, tr) -> step c st1 ev = (st2, rs) ->
  run c st (evs ++ [ev]) = (st2, tr ++ [(ev, rs)]).
Proof.
  induction evs as [|e r IH]; intros st st1 tr ev st2 rs H S; cbn in *.
  - injection H as <- <-. rewrite S. reflexivity.
  - destruct (step c st e) as [s1 r1]. destruct (run c s1 r) as [s2 t2] eqn:E. injection H as <- <-.
    rewrite (IH _ _ _ _ _ _ E S). reflexivity.
Qed.
Lemma admissible_snoc P c : forall evs st bk st1 tr ev,
  admissible P c st bk evs -> run c st evs = (st1, tr) -> P (fold_left note tr bk) ev ->
  admissible P c st bk (evs ++ [ev]).
Proof.
  induction evs as [|e r IH]; intros st bk st1 tr ev A H Pe; cbn in *.
  - injection H as <- <-. split; [exact Pe|]. destruct (step c st ev). exact I.
  - destruct A as [A1 A2]. split; [exact A1|]. destruct (step c st e) as [s1 r1].
    destruct (run c s1 r) as [s2 t2] eqn:E. injection H as <- <-. eapply IH; eauto.
Qed.
Lemma requests_keep_regions : forall tr bk,
  (forall ev rs, In (ev, rs) tr -> exists j rq, ev = EvReq j rq) ->
  regions (fold_left note tr bk) = regions bk.
Proof.
  induction tr as [|[ev rs] r IH]; intros bk H; cbn [fold_left]; [reflexivity|].
  rewrite IH by (intros; eapply H; right; eauto).
  destruct (H ev rs (or_introl eq_refl)) as (j & rq & ->). cbn [note].
  destruct (rs_error rs =? 0), (rq_kind rq =? 0), (rq_kind rq =? 1); reflexivity.
Qed.

(** C48: so a slab that was allocated and not freed before the destructor runs,
    whatever the sandboxes asked for in between, is deleted once per chunk. *)
Theorem live_slab_deleted_once_per_chunk : forall c evs st tr i size ras mp st1 rs reqs st2 tr2 b,
  cfg_ok c -> polite_history c evs -> run c init_state evs = (st, tr) ->
  chunk_size c size -> (16 | mp) -> 0 <= mp ->
  remote_of c ras <> 0 -> is_backend_owned c (Entry mp ras) = false ->
  step c st (EvHostAlloc i size ras mp) = (st1, rs) -> rs_error rs = 0 ->
  (forall ev, In ev reqs -> exists j rq, ev = EvReq j rq) ->
  admissible (polite_ok c) c st1 (note (books tr) (EvHostAlloc i size ras mp, rs)) reqs ->
  run c st1 reqs = (st2, tr2) ->
  nth_error (g_box st2) i = Some b -> b_live b = true ->
  (Z.to_nat (size / chunk c) <= count_occ Z.eq_dec (snd (library_destroy c (g_pm st2) b)) mp)%nat.
Proof.
  intros c evs st tr i size ras mp st1 rs reqs st2 tr2 b C P H Sz A16 Pm Rm Bk S Ok Rq Ad H2 Hi Lv.
  set (ev := EvHostAlloc i size ras mp) in *.
  assert (Pe : polite_ok c (books tr) ev) by (split; [split; auto|exact I]).
  assert (P1 : polite_history c (evs ++ [ev])) by (eapply admissible_snoc; eauto).
  pose proof (run_snoc _ _ _ _ _ _ _ _ H S) as H1.
  assert (B1 : books (tr ++ [(ev, rs)]) = note (books tr) (ev, rs)) by (unfold books; rewrite fold_left_app; reflexivity).
  rewrite <- B1 in Ad.
  destruct (host_chunks_fresh_aligned_blocks c evs st tr i size ras mp st1 rs C P H Sz A16 Pm S Ok)
    as (Al & r & Hr & Lr & Wi & _ & En).
  pose proof (polite_inv c _ _ _ C P1 H1) as I1.
  pose proof (inv_run c C _ _ _ _ _ I1 Ad H2) as I2.
  pose proof (L_ok _ _ _ (I_layout _ _ _ I2) i b Hi Lv) as R.
  assert (Rg : regions (fold_left note tr2 (books (tr ++ [(ev, rs)]))) = regions (books tr)).
  { rewrite requests_keep_regions, B1.
    - unfold note, ev. rewrite Ok. reflexivity.
    - intros e s Hin. apply Rq. rewrite <- (run_app_state _ _ _ _ _ H2). apply (in_map fst) in Hin. exact Hin. }
  assert (Er : r = box_region b).
  { pose proof (L_book _ _ _ (I_layout _ _ _ I2)) as L. rewrite Rg in L.
    rewrite <- L, nth_error_map, Hi in Hr. injection Hr as <-. reflexivity. }
  subst r. pose proof (chunk_pos c) as Pc.
  assert (Cs : (chunk c | size)).
  { destruct Sz as (k & K1 & ->). unfold chunk. apply divide_pow2. lia. }
  destruct Cs as [q Hq]. rewrite Hq, Z.div_mul by lia.
  assert (0 <= q) by (destruct Sz as (k & K1 & Ek); assert (0 < 2 ^ k) by (apply Z.pow_pos_nonneg; lia); nia).
  assert (Sp : 0 < size) by (destruct Sz as (k & K1 & ->); apply Z.pow_pos_nonneg; lia).
  pose proof (Wi (rs_ret rs) ltac:(lia)) as W1. pose proof (Wi (rs_ret rs + size - 1) ltac:(lia)) as W2.
  unfold r_end in W1, W2. cbn [box_region r_start r_bits] in W1, W2. fold (region_size b) in W1, W2.
  eapply destroy_count with (a := rs_ret rs); eauto.
  - eapply Z.divide_trans; [|exact Al]. exists q. exact Hq.
  - lia.
  - rewrite Z2Nat.id by auto. rewrite <- Hq. lia.
  - rewrite Z2Nat.id, <- Hq by auto. intros x X e. subst e.
    assert (Ow : owner (books (tr ++ [(ev, rs)])) x = Host).
    { rewrite B1. unfold note, ev. rewrite Ok. cbn. unfold set_owner.
      destruct (Z.leb_spec (rs_ret rs) x); [|lia]. destruct (Z.ltb_spec x (rs_ret rs + size)); [reflexivity|lia]. }
    rewrite (memsvc_host_entries_survive c _ _ _ reqs st2 tr2 C P1 H1 Rq Ad H2 x (or_introl Ow)).
    destruct (En x X) as (E1 & E2).
    split.
    { destruct (is_sandbox_owned (g_pm st1 (x / chunk c))) eqn:E; auto.
      apply (memsvc_mark_is_ownership c _ _ _ _ C P1 H1) in E. congruence. }
    unfold is_backend_owned in *. rewrite E1, E2. auto.
Qed.
Print Assumptions live_slab_deleted_once_per_chunk.

(** C18: a host slab of two chunks that is still live is deleted twice. *)
Theorem library_destroy_double_delete_refuted :
  exists evs st tr b,
    polite_history ex_cfg evs /\ run ex_cfg init_state evs = (st, tr) /\
    nth_error (g_box st) 0 = Some b /\ b_live b = true /\
    snd (library_destroy ex_cfg (g_pm st) b) = [0x5000; 0x5000].
Proof.
  set (evs := [EvCreate ex_base 18; EvHostAlloc 0 (2 * ck) 0x7f0040004000 0x5000]).
  exists evs, (fst (run ex_cfg init_state evs)), (snd (run ex_cfg init_state evs)).
  eexists. split.
  { unfold polite_history, evs. nextev.
    { split; [|exact I]. cbn [hostile_ok fresh_region]. unfold fresh_region, ex_base, W.
      cbn [cbits ex_cfg]. repeat split; try lia.
      - exists (0x7f0040000000 / 2 ^ 18). reflexivity.
      - intros r []. }
    nextev. { split; [|exact I]. split; [apply (ck_size 15); [cbn; lia|reflexivity]|]. split; [exists 0x500; reflexivity|lia]. }
    exact I. }
  split; [destruct (run ex_cfg init_state evs); reflexivity|].
  split; [vm_compute; reflexivity|]. split; [reflexivity|]. vm_compute. reflexivity.
Qed.
Print Assumptions library_destroy_double_delete_refuted.

(** The hypotheses of [live_slab_deleted_once_per_chunk] are met: the host takes
    two chunks, the sandbox one, and the destructor deletes the host's metadata
    twice. *)
Example live_slab_example :
  exists st tr st1 rs reqs st2 tr2 b,
    polite_history ex_cfg [EvCreate ex_base 18] /\ run ex_cfg init_state [EvCreate ex_base 18] = (st, tr) /\
    step ex_cfg st (EvHostAlloc 0 (2 * ck) 0x7f0040004000 0x5000) = (st1, rs) /\ rs_error rs = 0 /\
    reqs = [EvReq 0 (alloc_rq 1)] /\
    admissible (polite_ok ex_cfg) ex_cfg st1 (note (books tr) (EvHostAlloc 0 (2 * ck) 0x7f0040004000 0x5000, rs)) reqs /\
    run ex_cfg st1 reqs = (st2, tr2) /\ map (fun er => rs_error (snd er)) tr2 = [0] /\
    nth_error (g_box st2) 0 = Some b /\ b_live b = true /\
    remote_of ex_cfg 0x7f0040004000 <> 0 /\ is_backend_owned ex_cfg (Entry 0x5000 0x7f0040004000) = false /\
    Z.to_nat (2 * ck / chunk ex_cfg) = 2%nat /\
    (2 <= count_occ Z.eq_dec (snd (library_destroy ex_cfg (g_pm st2) b)) 0x5000%Z)%nat.
Proof.
  set (s0 := run ex_cfg init_state [EvCreate ex_base 18]).
  set (s1 := step ex_cfg (fst s0) (EvHostAlloc 0 (2 * ck) 0x7f0040004000 0x5000)).
  set (s2 := run ex_cfg (fst s1) [EvReq 0 (alloc_rq 1)]).
  exists (fst s0), (snd s0), (fst s1), (snd s1), [EvReq 0 (alloc_rq 1)], (fst s2), (snd s2). eexists.
  split.
  { unfold polite_history. nextev; [|exact I].
    split; [|exact I]. cbn [hostile_ok fresh_region]. unfold fresh_region, ex_base, W.
    cbn [cbits ex_cfg]. repeat split; try lia.
    - exists (0x7f0040000000 / 2 ^ 18). reflexivity.
    - intros r []. }
  split; [apply surjective_pairing|]. split; [apply surjective_pairing|]. split; [vm_compute; reflexivity|].
  split; [reflexivity|]. split.
  { unfold alloc_rq. nextev; [|exact I]. split; [words|]. cbn. discriminate. }
  split; [apply surjective_pairing|]. split; [vm_compute; reflexivity|].
  split; [vm_compute; reflexivity|]. split; [reflexivity|].
  split; [vm_compute; discriminate|]. split; [vm_compute; reflexivity|]. split; [vm_compute; reflexivity|].
  vm_compute. repeat constructor.
Qed.
