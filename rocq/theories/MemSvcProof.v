(** Proofs about MemSvcModel.v. *)
From Coq Require Import List ZArith Lia Bool.
From Verif Require Import Base RegionModel RegionSpec RegionProof BuddyModel BuddyProof
  MemSvcModel MemSvcSpec.
Import ListNotations.
Open Scope Z_scope.

(** ** Bits of entries *)

Lemma land_8_testbit m : (Z.land m 8 =? 8) = Z.testbit m 3.
Proof.
  destruct (Z.testbit m 3) eqn:E.
  - apply Z.eqb_eq. apply Z.bits_inj'. intros n Hn. rewrite Z.land_spec.
    change 8 with (2 ^ 3). rewrite Z.pow2_bits_eqb by lia.
    destruct (3 =? n) eqn:Q; [|apply andb_false_r].
    apply Z.eqb_eq in Q. subst n. rewrite E. reflexivity.
  - apply Z.eqb_neq. intros H. assert (Z.testbit (Z.land m 8) 3 = true) by (rewrite H; reflexivity).
    rewrite Z.land_spec, E in H0. discriminate.
Qed.

Lemma is_sandbox_owned_bit e : is_sandbox_owned e = Z.testbit (e_meta e) 3.
Proof. apply land_8_testbit. Qed.

Lemma assign_owned old t : is_sandbox_owned (assign old t) = is_sandbox_owned t.
Proof.
  rewrite !is_sandbox_owned_bit. unfold assign; cbn [e_meta].
  rewrite Z.lor_spec, Z.ldiff_spec, Z.land_spec. unfold META_BOUNDARY_BIT.
  change (Z.testbit 1 3) with false. cbn. rewrite andb_true_r, andb_false_r, orb_false_r. reflexivity.
Qed.

Lemma claim_owned e : is_sandbox_owned (claim_for_sandbox e) = true.
Proof.
  rewrite is_sandbox_owned_bit. unfold claim_for_sandbox; cbn [e_meta].
  rewrite Z.lor_spec. unfold SANDBOX_BIT. change (Z.testbit 8 3) with true. apply orb_true_r.
Qed.

Lemma aligned_ptr_not_owned mp ras : (16 | mp) -> is_sandbox_owned (Entry mp ras) = false.
Proof.
  intros [q ->]. rewrite is_sandbox_owned_bit; cbn [e_meta].
  change 16 with (2 ^ 4). rewrite Z.mul_pow2_bits by lia. apply Z.testbit_neg_r. lia.
Qed.

Lemma slab_of_aligned old mp ras : (16 | mp) -> 0 <= mp ->
  get_slab_metadata (assign old (Entry mp ras)) = mp.
Proof.
  intros [q ->] _. unfold get_slab_metadata, assign; cbn [e_meta].
  apply Z.bits_inj'. intros n Hn.
  rewrite Z.ldiff_spec, Z.lor_spec, Z.ldiff_spec, Z.land_spec, Z.lor_spec.
  unfold SANDBOX_BIT, META_BOUNDARY_BIT.
  change 8 with (2 ^ 3). change 1 with (2 ^ 0). change 16 with (2 ^ 4).
  rewrite !Z.pow2_bits_eqb by lia. rewrite Z.mul_pow2_bits by lia.
  destruct (Z_lt_le_dec n 4) as [L|L].
  - rewrite Z.testbit_neg_r by lia.
    assert (n = 0 \/ n = 1 \/ n = 2 \/ n = 3) as [->|[->|[->| ->]]] by lia;
      cbn; try reflexivity; rewrite ?andb_false_r; reflexivity.
  - destruct (3 =? n) eqn:E3; [lia|]. destruct (0 =? n) eqn:E0; [lia|]. cbn.
    rewrite andb_false_r, orb_false_r, !andb_true_r. reflexivity.
Qed.

(** ** Powers of two *)

Lemma is_pow2_iff x : 0 < x < W -> (is_pow2 x = true <-> exists n, 0 <= n /\ x = 2 ^ n).
Proof.
  intros Hx. unfold is_pow2. rewrite wrap_small by (unfold is_word; lia). rewrite Z.eqb_eq. split.
  - intros H. exists (Z.log2 x). split; [apply Z.log2_nonneg|].
    pose proof (Z.log2_spec x ltac:(lia)) as [A B].
    destruct (Z.eq_dec x (2 ^ Z.log2 x)) as [E|E]; [exact E|]. exfalso.
    assert (L : Z.log2 (x - 1) = Z.log2 x) by (apply Z.log2_unique; [apply Z.log2_nonneg|lia]).
    assert (P : 0 < 2 ^ Z.log2 x) by (apply Z.pow_pos_nonneg; [lia|apply Z.log2_nonneg]).
    assert (T : Z.testbit (Z.land x (x - 1)) (Z.log2 x) = true).
    { rewrite Z.land_spec, Z.bit_log2 by lia. rewrite <- L. rewrite Z.bit_log2 by lia.
      reflexivity. }
    rewrite H, Z.bits_0 in T. discriminate.
  - intros (n & Hn & ->). rewrite Z.sub_1_r, <- Z.ones_equiv, Z.land_ones by lia.
    apply Z.mod_same. apply Z.pow_nonzero; lia.
Qed.

Lemma size_ok c size : is_word size ->
  (size <? chunk c) || negb (is_pow2 size) = false <-> chunk_size c size.
Proof.
  intros Hs. unfold is_word in Hs. assert (C : 0 < chunk c) by (apply Z.pow_pos_nonneg; lia).
  rewrite orb_false_iff, negb_false_iff, Z.ltb_ge. split.
  - intros [A B]. apply is_pow2_iff in B; [|lia]. destruct B as (n & Hn & ->).
    exists n. split; [|reflexivity]. unfold chunk in A.
    apply Z.pow_le_mono_r_iff with 2; lia.
  - intros (n & Hn & ->). assert (chunk c <= 2 ^ n) by (apply Z.pow_le_mono_r; lia).
    split; [lia|]. apply is_pow2_iff; [lia|]. exists n. split; [lia|reflexivity].
Qed.

Lemma chunk_pos c : 0 < chunk c.
Proof. apply Z.pow_pos_nonneg; lia. Qed.

Lemma chunk_size_mult c size : chunk_size c size -> exists m, 0 < m /\ size = m * chunk c.
Proof.
  intros (n & Hn & ->). exists (2 ^ (n - Z.of_nat (cbits c))). split.
  - apply Z.pow_pos_nonneg; lia.
  - unfold chunk. rewrite <- Z.pow_add_r by lia. f_equal. lia.
Qed.

Lemma chunk_steps_mult c m : 0 <= m -> chunk_steps c (m * chunk c) = Z.to_nat m.
Proof.
  intros Hm. unfold chunk_steps. f_equal. pose proof (chunk_pos c) as P.
  replace (m * chunk c + chunk c - 1) with (chunk c - 1 + m * chunk c) by ring.
  rewrite Z.div_add by lia. rewrite Z.div_small by lia. lia.
Qed.

(** ** Loops over chunks *)

Lemma set_loop_spec c t : forall n q pm j,
  set_loop c n (q * chunk c) t pm j
  = if (q <=? j) && (j <? q + Z.of_nat n) then assign (pm j) t else pm j.
Proof.
  pose proof (chunk_pos c) as P.
  induction n as [|n IH]; intros q pm j.
  - cbn [set_loop]. cbn [Z.of_nat]. destruct (q <=? j) eqn:A, (j <? q + 0) eqn:B; cbn [andb]; try reflexivity; lia.
  - cbn [set_loop]. replace (q * chunk c + chunk c) with ((q + 1) * chunk c) by ring.
    rewrite IH, Z.div_mul by lia. unfold pm_set.
    destruct (j =? q) eqn:E.
    + apply Z.eqb_eq in E. subst j.
      destruct (q + 1 <=? q) eqn:A; [lia|]. cbn [andb].
      destruct (q <=? q) eqn:B; [|lia].
      destruct (q <? q + Z.of_nat (S n)) eqn:D; [reflexivity|].
      apply Z.ltb_ge in D. exfalso. lia.
    + replace (q + 1 + Z.of_nat n) with (q + Z.of_nat (S n)) by lia.
      destruct (q + 1 <=? j) eqn:A; destruct (q <=? j) eqn:B; try lia; reflexivity.
Qed.

(** Byte view: which entries set_metaentry changes. *)
Lemma byte_chunk c q m x : 
  ((q <=? x / chunk c) && (x / chunk c <? q + m))
  = ((q * chunk c <=? x) && (x <? (q + m) * chunk c)).
Proof.
  pose proof (chunk_pos c) as P.
  pose proof (Z.div_mod x (chunk c) ltac:(lia)) as D.
  pose proof (Z.mod_pos_bound x (chunk c) P) as B.
  f_equal.
  - destruct (Z.leb_spec (q * chunk c) x) as [L|L]; destruct (Z.leb_spec q (x / chunk c)) as [M|M]; auto.
    + exfalso. assert (q >= x / chunk c + 1) by lia.
      assert ((x / chunk c + 1) * chunk c <= q * chunk c) by (apply Z.mul_le_mono_nonneg_r; lia). lia.
    + exfalso. assert (q * chunk c <= x / chunk c * chunk c) by (apply Z.mul_le_mono_nonneg_r; lia). lia.
  - destruct (Z.ltb_spec x ((q + m) * chunk c)) as [L|L];
      destruct (Z.ltb_spec (x / chunk c) (q + m)) as [M|M]; auto.
    + exfalso. assert ((q + m) * chunk c <= x / chunk c * chunk c) by (apply Z.mul_le_mono_nonneg_r; lia). lia.
    + exfalso. assert ((x / chunk c + 1) * chunk c <= (q + m) * chunk c)
        by (apply Z.mul_le_mono_nonneg_r; lia). lia.
Qed.

Definition inblk (a n x : Z) : bool := (a <=? x) && (x <? a + n).

Lemma set_metaentry_spec c pm a size t x :
  (chunk c | a) -> chunk_size c size ->
  set_metaentry c pm a size t (x / chunk c)
  = if inblk a size x then assign (pm (x / chunk c)) t else pm (x / chunk c).
Proof.
  intros [q ->] Hs. destruct (chunk_size_mult c size Hs) as (m & Hm & ->).
  unfold set_metaentry. rewrite chunk_steps_mult by lia.
  rewrite set_loop_spec, Z2Nat.id by lia. rewrite byte_chunk.
  unfold inblk. replace (q * chunk c + m * chunk c) with ((q + m) * chunk c) by ring. reflexivity.
Qed.

Lemma all_owned_spec c pm : forall n q,
  all_sandbox_owned c pm n (q * chunk c) = true <->
  (forall j, q <= j < q + Z.of_nat n -> is_sandbox_owned (pm j) = true).
Proof.
  pose proof (chunk_pos c) as P.
  induction n as [|n IH]; intros q; cbn [all_sandbox_owned].
  - split; [intros _ j Hj; lia|reflexivity].
  - replace (q * chunk c + chunk c) with ((q + 1) * chunk c) by ring.
    rewrite Z.div_mul by lia. rewrite andb_true_iff, IH. split.
    + intros [A B] j Hj. destruct (Z.eq_dec j q) as [->|]; [exact A|]. apply B. lia.
    + intros H. split; [apply H; lia|]. intros j Hj. apply H. lia.
Qed.

Lemma all_owned_bytes c pm a size :
  (chunk c | a) -> chunk_size c size ->
  (all_sandbox_owned c pm (chunk_steps c size) a = true <->
   forall x, a <= x < a + size -> is_sandbox_owned (pm (x / chunk c)) = true).
Proof.
  intros [q ->] Hs. destruct (chunk_size_mult c size Hs) as (m & Hm & ->).
  pose proof (chunk_pos c) as P.
  rewrite chunk_steps_mult by lia. rewrite all_owned_spec, Z2Nat.id by lia. split.
  - intros H x Hx. apply H. pose proof (byte_chunk c q m x) as B.
    assert (T : (q * chunk c <=? x) && (x <? (q + m) * chunk c) = true) by lia.
    rewrite T in B. lia.
  - intros H j Hj. specialize (H (j * chunk c)). rewrite Z.div_mul in H by lia. apply H.
    split; [apply Z.mul_le_mono_nonneg_r; lia|].
    replace (q * chunk c + m * chunk c) with ((q + m) * chunk c) by ring.
    apply Z.mul_lt_mono_pos_r; lia.
Qed.

Lemma align_down_fix c p : (align_down p (chunk c) =? p) = true <-> (chunk c | p).
Proof.
  pose proof (chunk_pos c) as P. rewrite Z.eqb_eq. unfold align_down. split.
  - intros H. apply Z.mod_divide; lia.
  - intros H. apply Z.mod_divide in H; lia.
Qed.

(** ** Lists of sandboxes *)

Lemma nth_upd {A} : forall (l : list A) i j v,
  nth_error (upd i v l) j
  = if Nat.eqb i j then (if nth_error l i then Some v else None) else nth_error l j.
Proof.
  induction l as [|x l IH]; intros i j v; cbn.
  - destruct i, j; cbn; try reflexivity; destruct (Nat.eqb i j); reflexivity.
  - destruct i, j; cbn; try reflexivity. apply IH.
Qed.

Lemma upd_same {A} (l : list A) i v w : nth_error l i = Some w ->
  nth_error (upd i v l) i = Some v.
Proof. intros H. rewrite nth_upd, Nat.eqb_refl, H. reflexivity. Qed.

Lemma upd_other {A} (l : list A) i j v : i <> j -> nth_error (upd i v l) j = nth_error l j.
Proof. intros H. rewrite nth_upd. apply Nat.eqb_neq in H. rewrite H. reflexivity. Qed.

Lemma map_upd {A B} (f : A -> B) : forall l i v, map f (upd i v l) = upd i (f v) (map f l).
Proof. induction l as [|x l IH]; intros [|i] v; cbn; auto. f_equal. apply IH. Qed.

Lemma upd_id {A} : forall (l : list A) i v, nth_error l i = Some v -> upd i v l = l.
Proof. induction l as [|x l IH]; intros [|i] v; cbn; intros H; try discriminate; f_equal; auto. congruence. Qed.

(** ** Regions *)

Definition box_region (b : sbx) : region := Region (b_shm b) (b_bits b) (b_live b).

(** A live region as the kernel made it. *)
Definition region_ok (c : cfg) (shm : Z) (bits : nat) : Prop :=
  (cbits c < bits)%nat /\ (bits <= 62)%nat /\ 0 < shm /\ (2 ^ Z.of_nat bits | shm) /\
  shm + 2 ^ Z.of_nat bits < W.

Definition apart (b1 b2 : sbx) : Prop :=
  b_shm b1 + region_size b1 <= b_shm b2 \/ b_shm b2 + region_size b2 <= b_shm b1.

(** The static part shared by both invariants. *)
Record layout (c : cfg) (st : gstate) (bk : book) : Prop := {
  L_book : map box_region (g_box st) = regions bk;
  L_ok : forall i b, nth_error (g_box st) i = Some b -> b_live b = true ->
                     region_ok c (b_shm b) (b_bits b);
  L_apart : forall i j b1 b2, nth_error (g_box st) i = Some b1 -> nth_error (g_box st) j = Some b2 ->
            b_live b1 = true -> b_live b2 = true -> i <> j -> apart b1 b2 }.

Lemma region_mapping c shm bits : cfg_ok c -> region_ok c shm bits ->
  mapping_ok shm (2 ^ Z.of_nat bits) (hdr_size c).
Proof.
  intros (C1 & C2 & C3 & _) (R1 & R2 & R3 & R4 & R5). unfold mapping_ok.
  assert (chunk c <= 2 ^ Z.of_nat bits) by (apply Z.pow_le_mono_r; lia). lia.
Qed.

Lemma box_contains c b p n : cfg_ok c -> region_ok c (b_shm b) (b_bits b) -> is_word p -> is_word n ->
  (contains (box_heap c b) p n = true <->
   b_shm b + 2 * hdr_size c <= p /\ p < b_shm b + region_size b /\ p + n <= b_shm b + region_size b).
Proof.
  intros C R Hp Hn. unfold box_heap. apply contains_iff; auto. apply region_mapping; auto.
Qed.

Lemma region_chunk_aligned c shm bits : region_ok c shm bits -> (chunk c | shm).
Proof.
  intros (R1 & R2 & R3 & R4 & R5). apply Z.divide_trans with (2 ^ Z.of_nat bits); [|exact R4].
  apply divide_pow2. lia.
Qed.

(** A chunk-aligned address accepted by [contains] lies after the header chunk. *)
Lemma contains_after_header c b p n : cfg_ok c -> region_ok c (b_shm b) (b_bits b) ->
  is_word p -> is_word n -> (chunk c | p) ->
  contains (box_heap c b) p n = true ->
  b_shm b + chunk c <= p /\ p + n <= b_shm b + region_size b.
Proof.
  intros C R Hp Hn [q Hq] H. apply box_contains in H; auto.
  destruct (region_chunk_aligned _ _ _ R) as [u Hu].
  destruct C as (C1 & C2 & C3 & _). pose proof (chunk_pos c) as P.
  split; [|lia]. rewrite Hq, Hu in *.
  assert (u < q) by (apply Z.mul_lt_mono_pos_r with (chunk c); lia).
  assert ((u + 1) * chunk c <= q * chunk c) by (apply Z.mul_le_mono_nonneg_r; lia). lia.
Qed.

(** ** What a request does, without the bit twiddling *)

Inductive request_effect (c : cfg) (pm : pagemap) (b : sbx) (rq : request)
  : pagemap -> sbx -> response -> Prop :=
| RE_none rs : rs_ret rs = 0 ->
    (rs_error rs = 0 -> rq_kind rq <> 0 /\ rq_kind rq <> 1) ->
    request_effect c pm b rq pm b rs
| RE_alloc a free' : rq_kind rq = 0 -> chunk_size c (rq_0 rq) ->
    is_metaentry_valid c b (rq_0 rq) (Entry (rq_1 rq) (rq_2 rq)) = true ->
    alloc_range (b_free b) (rq_0 rq) = Some (a, free') ->
    request_effect c pm b rq
      (set_metaentry c pm a (rq_0 rq) (claim_for_sandbox (Entry (rq_1 rq) (rq_2 rq))))
      (Sbx (b_shm b) (b_bits b) free' (b_live b)) (Response 0 a)
| RE_dealloc : rq_kind rq = 1 -> chunk_size c (rq_1 rq) -> (chunk c | rq_0 rq) ->
    b_shm b + chunk c <= rq_0 rq -> rq_0 rq + rq_1 rq <= b_shm b + region_size b ->
    (forall x, rq_0 rq <= x < rq_0 rq + rq_1 rq -> is_sandbox_owned (pm (x / chunk c)) = true) ->
    request_effect c pm b rq
      (set_metaentry c pm (rq_0 rq) (rq_1 rq) (backend_entry c))
      (Sbx (b_shm b) (b_bits b) (dealloc_range (b_free b) (rq_0 rq) (rq_1 rq)) (b_live b))
      (Response 0 0).

Lemma service_effect c pm b rq pm' b' rs :
  cfg_ok c -> region_ok c (b_shm b) (b_bits b) -> request_words rq ->
  service c pm b rq = (pm', b', rs) ->
  request_effect c pm b rq pm' b' rs.
Proof.
  intros C R (W0 & W1 & W2). unfold service.
  destruct (rq_kind rq =? 0) eqn:K0.
  - apply Z.eqb_eq in K0. unfold service_alloc.
    destruct ((rq_0 rq <? chunk c) || negb (is_pow2 (rq_0 rq))) eqn:S.
    { intros H. injection H as <- <- <-. apply RE_none; cbn; [reflexivity|lia]. }
    apply size_ok in S; auto.
    destruct (is_metaentry_valid c b (rq_0 rq) (Entry (rq_1 rq) (rq_2 rq))) eqn:V; cbn [negb].
    2:{ intros H. injection H as <- <- <-. apply RE_none; cbn; [reflexivity|lia]. }
    destruct (alloc_range (b_free b) (rq_0 rq)) as [[a free']|] eqn:A.
    2:{ intros H. injection H as <- <- <-. apply RE_none; cbn; [reflexivity|lia]. }
    intros H. injection H as <- <- <-. apply RE_alloc; auto.
  - apply Z.eqb_neq in K0. destruct (rq_kind rq =? 1) eqn:K1.
    + apply Z.eqb_eq in K1. unfold service_dealloc.
      destruct (contains (box_heap c b) (rq_0 rq) (rq_1 rq)) eqn:I; cbn [negb].
      2:{ intros H. injection H as <- <- <-. apply RE_none; cbn; [reflexivity|lia]. }
      destruct (is_pow2 (rq_1 rq) && (chunk c <=? rq_1 rq)) eqn:S; cbn [negb].
      2:{ intros H. injection H as <- <- <-. apply RE_none; cbn; [reflexivity|lia]. }
      destruct (align_down (rq_0 rq) (chunk c) =? rq_0 rq) eqn:A; cbn [negb].
      2:{ intros H. injection H as <- <- <-. apply RE_none; cbn; [reflexivity|lia]. }
      destruct (all_sandbox_owned c pm (chunk_steps c (rq_1 rq)) (rq_0 rq)) eqn:O; cbn [negb].
      2:{ intros H. injection H as <- <- <-. apply RE_none; cbn; [reflexivity|lia]. }
      apply andb_true_iff in S as [S1 S2].
      assert (CS : chunk_size c (rq_1 rq)).
      { apply size_ok; auto. rewrite S1. cbn. rewrite orb_false_r. apply Z.ltb_ge. lia. }
      apply align_down_fix in A.
      destruct (contains_after_header c b _ _ C R W0 W1 A I) as [B1 B2].
      pose proof (proj1 (all_owned_bytes c pm _ _ A CS) O) as OB.
      unfold backend_dealloc. intros H. injection H as <- <- <-. apply RE_dealloc; auto.
    + apply Z.eqb_neq in K1. intros H. injection H as <- <- <-.
      apply RE_none; cbn; auto.
Qed.

(** ** The invariant of polite histories *)

Record inv (c : cfg) (st : gstate) (bk : book) : Prop := {
  I_layout : layout c st bk;
  I_free : forall i b, nth_error (g_box st) i = Some b -> b_live b = true ->
           wfl (Z.of_nat (cbits c)) (b_free b) /\
           (forall x, covers (b_free b) x <->
              b_shm b + chunk c <= x < b_shm b + region_size b /\ owner bk x = Nobody);
  I_owned_live : forall x, owner bk x <> Nobody ->
           exists i b, nth_error (g_box st) i = Some b /\ b_live b = true /\
                       b_shm b + chunk c <= x < b_shm b + region_size b;
  I_mark : forall x, owner bk x = Sandbox <-> is_sandbox_owned (g_pm st (x / chunk c)) = true }.

Lemma inv_init c : inv c init_state empty_book.
Proof.
  constructor.
  - constructor; cbn; auto.
    + intros i b H. destruct i; discriminate.
    + intros i j b1 b2 H. destruct i; discriminate.
  - intros i b H. destruct i; discriminate.
  - intros x H. cbn in H. congruence.
  - intros x. cbn. split; discriminate.
Qed.

(** Replacing box i by one with the same region and a new free list. *)
Lemma layout_upd c st bk i b free' pm' f :
  layout c st bk -> nth_error (g_box st) i = Some b ->
  layout c (GState pm' (upd i (Sbx (b_shm b) (b_bits b) free' (b_live b)) (g_box st)))
           (Book f (regions bk)).
Proof.
  intros [B O A] Hi. constructor; cbn [g_box regions].
  - rewrite map_upd, <- B. apply upd_id. rewrite nth_error_map, Hi. reflexivity.
  - intros j b' Hj L. rewrite nth_upd in Hj. destruct (Nat.eqb i j).
    + rewrite Hi in Hj. injection Hj as <-. cbn in *. eapply O; eauto.
    + eapply O; eauto.
  - intros j k b1 b2 Hj Hk L1 L2 N. rewrite nth_upd in Hj, Hk.
    destruct (Nat.eqb i j) eqn:E1, (Nat.eqb i k) eqn:E2.
    + apply Nat.eqb_eq in E1, E2. congruence.
    + rewrite Hi in Hj. injection Hj as <-. cbn in L1. apply Nat.eqb_eq in E1. subst j.
      unfold apart, region_size; cbn [b_shm b_bits]. eapply (A i k b b2); eauto.
    + rewrite Hi in Hk. injection Hk as <-. cbn in L2. apply Nat.eqb_eq in E2. subst k.
      unfold apart, region_size; cbn [b_shm b_bits]. eapply (A j i b1 b); eauto.
    + eapply (A j k b1 b2); eauto.
Qed.

Lemma inblk_true a n x : inblk a n x = true <-> a <= x < a + n.
Proof. unfold inblk. lia. Qed.

Lemma set_owner_eq f a n w x : set_owner f a n w x = if inblk a n x then w else f x.
Proof. reflexivity. Qed.

(** Taking a block out of the free list for owner [w]. *)
Lemma inv_take c st bk i b size a free' e w :
  cfg_ok c -> inv c st bk -> nth_error (g_box st) i = Some b -> b_live b = true ->
  chunk_size c size -> alloc_range (b_free b) size = Some (a, free') ->
  w <> Nobody -> (is_sandbox_owned e = true <-> w = Sandbox) ->
  (size | a) /\ b_shm b + chunk c <= a /\ a + size <= b_shm b + region_size b /\
  (forall x, a <= x < a + size -> owner bk x = Nobody) /\
  inv c (GState (set_metaentry c (g_pm st) a size e)
                (upd i (Sbx (b_shm b) (b_bits b) free' (b_live b)) (g_box st)))
        (Book (set_owner (owner bk) a size w) (regions bk)).
Proof.
  intros C I Hi Lv Hs A Hw He.
  destruct (I_free _ _ _ I i b Hi Lv) as [Wf Cv].
  pose proof Hs as (n & Hn & ->).
  destruct (alloc_range_spec (Z.of_nat (cbits c)) (b_free b) n a free' ltac:(lia) Hn Wf A)
    as (S1 & S2 & S3 & S4).
  assert (Pn : 0 < 2 ^ n) by (apply Z.pow_pos_nonneg; lia).
  assert (In1 : forall x, a <= x < a + 2 ^ n ->
            b_shm b + chunk c <= x < b_shm b + region_size b /\ owner bk x = Nobody).
  { intros x Hx. apply Cv. apply S3. unfold inb; cbn [fst snd]. exact Hx. }
  assert (B1 : b_shm b + chunk c <= a) by (apply (In1 a); lia).
  assert (B2 : a + 2 ^ n <= b_shm b + region_size b).
  { destruct (In1 (a + 2 ^ n - 1) ltac:(lia)) as [X _]. lia. }
  assert (Ca : (chunk c | a)).
  { apply Z.divide_trans with (2 ^ n); [|exact S2]. apply divide_pow2. lia. }
  split; [exact S2|]. split; [exact B1|]. split; [exact B2|].
  split; [intros x Hx; apply In1; exact Hx|].
  constructor; cbn [g_box g_pm owner regions].
  - apply layout_upd; auto. exact (I_layout _ _ _ I).
  - intros j b' Hj Lj. rewrite nth_upd in Hj. destruct (Nat.eqb i j) eqn:E.
    + rewrite Hi in Hj. injection Hj as <-. cbn [b_free b_shm]. split; [exact S1|].
      intros x. rewrite S4, Cv, set_owner_eq. unfold region_size; cbn [b_bits].
      destruct (inblk a (2 ^ n) x) eqn:Q.
      * apply inblk_true in Q. split; [|intros [_ X]; congruence].
        intros [_ X]. exfalso. apply X. unfold inb; cbn [fst snd]. exact Q.
      * split; [tauto|]. intros [X1 X2]. split; [tauto|]. intros X3.
        unfold inb in X3; cbn [fst snd] in X3. apply inblk_true in X3. congruence.
    + apply Nat.eqb_neq in E. destruct (I_free _ _ _ I j b' Hj Lj) as [Wj Cj].
      split; [exact Wj|]. intros x. rewrite Cj, set_owner_eq.
      destruct (inblk a (2 ^ n) x) eqn:Q; [|tauto].
      apply inblk_true in Q.
      pose proof (L_apart _ _ _ (I_layout _ _ _ I) i j b b' Hi Hj Lv Lj E) as Ap.
      unfold apart in Ap. destruct (In1 x Q) as [X _]. pose proof (chunk_pos c). 
      split; [lia|]. intros [_ X2]. congruence.
  - intros x. rewrite set_owner_eq. destruct (inblk a (2 ^ n) x) eqn:Q.
    + intros _. apply inblk_true in Q. exists i.
      eexists. split; [apply (upd_same _ _ _ _ Hi)|]. cbn [b_live b_shm].
      split; [exact Lv|]. unfold region_size; cbn [b_bits]. apply In1. exact Q.
    + intros Hx. destruct (I_owned_live _ _ _ I x Hx) as (j & b' & Hj & Lj & Rj).
      destruct (Nat.eq_dec i j) as [->|Ne].
      * rewrite Hi in Hj. injection Hj as <-.
        exists j. eexists. split; [apply (upd_same _ _ _ _ Hi)|]. cbn [b_live b_shm].
        split; [exact Lv|exact Rj].
      * exists j, b'. rewrite upd_other by exact Ne. auto.
  - intros x. rewrite set_metaentry_spec by auto. rewrite set_owner_eq.
    destruct (inblk a (2 ^ n) x).
    + rewrite assign_owned. symmetry. exact He.
    + apply (I_mark _ _ _ I).
Qed.

(** Giving back an aligned block that the free list does not cover. *)
Lemma inv_give c st bk i b size a :
  cfg_ok c -> inv c st bk -> nth_error (g_box st) i = Some b -> b_live b = true ->
  chunk_size c size -> (size | a) ->
  b_shm b + chunk c <= a -> a + size <= b_shm b + region_size b ->
  (forall x, a <= x < a + size -> owner bk x <> Nobody) ->
  inv c (GState (set_metaentry c (g_pm st) a size (backend_entry c))
                (upd i (Sbx (b_shm b) (b_bits b) (dealloc_range (b_free b) a size) (b_live b))
                       (g_box st)))
        (Book (set_owner (owner bk) a size Nobody) (regions bk)).
Proof.
  intros C I Hi Lv Hs Al B1 B2 Ow.
  destruct (I_free _ _ _ I i b Hi Lv) as [Wf Cv].
  pose proof Hs as (n & Hn & ->).
  assert (Pn : 0 < 2 ^ n) by (apply Z.pow_pos_nonneg; lia).
  destruct (add_block_spec (Z.of_nat (cbits c)) (b_free b) a (2 ^ n) ltac:(lia) Wf) as [S1 S2].
  { exists n. cbn [fst snd]. auto. }
  { intros d Hd x Hx Hdx. unfold inb in Hx; cbn [fst snd] in Hx.
    apply (Ow x Hx). apply Cv. exists d. auto. }
  assert (Ca : (chunk c | a)).
  { apply Z.divide_trans with (2 ^ n); [|exact Al]. apply divide_pow2. lia. }
  constructor; cbn [g_box g_pm owner regions].
  - apply layout_upd; auto. exact (I_layout _ _ _ I).
  - intros j b' Hj Lj. rewrite nth_upd in Hj. destruct (Nat.eqb i j) eqn:E.
    + rewrite Hi in Hj. injection Hj as <-. cbn [b_free b_shm]. split; [exact S1|].
      intros x. unfold dealloc_range. rewrite S2, Cv, set_owner_eq.
      unfold region_size in *; cbn [b_bits] in *.
      unfold inb; cbn [fst snd]. rewrite <- inblk_true.
      destruct (inblk a (2 ^ n) x) eqn:Q.
      * apply inblk_true in Q. split; [intros _; split; [lia|reflexivity]|auto].
      * split; [intros [X|X]; [discriminate|exact X]|auto].
    + apply Nat.eqb_neq in E. destruct (I_free _ _ _ I j b' Hj Lj) as [Wj Cj].
      split; [exact Wj|]. intros x. rewrite Cj, set_owner_eq.
      destruct (inblk a (2 ^ n) x) eqn:Q; [|tauto].
      apply inblk_true in Q.
      pose proof (L_apart _ _ _ (I_layout _ _ _ I) i j b b' Hi Hj Lv Lj E) as Ap.
      unfold apart in Ap. pose proof (chunk_pos c). lia.
  - intros x. rewrite set_owner_eq. destruct (inblk a (2 ^ n) x) eqn:Q; [congruence|].
    intros Hx. destruct (I_owned_live _ _ _ I x Hx) as (j & b' & Hj & Lj & Rj).
    destruct (Nat.eq_dec i j) as [->|Ne].
    + rewrite Hi in Hj. injection Hj as <-.
      exists j. eexists. split; [apply (upd_same _ _ _ _ Hi)|]. cbn [b_live b_shm].
      split; [exact Lv|exact Rj].
    + exists j, b'. rewrite upd_other by exact Ne. auto.
  - intros x. rewrite set_metaentry_spec by auto. rewrite set_owner_eq.
    destruct (inblk a (2 ^ n) x).
    + rewrite assign_owned. cbn. split; discriminate.
    + apply (I_mark _ _ _ I).
Qed.

(** ** Destruction *)

Lemma div_shift c a k : (a + k * chunk c) / chunk c = a / chunk c + k.
Proof. pose proof (chunk_pos c). apply Z.div_add. lia. Qed.

Lemma destroy_loop_pm c : forall n a pm j,
  fst (destroy_loop c n a pm) j
  = if (a / chunk c <=? j) && (j <? a / chunk c + Z.of_nat n)
    then assign (pm j) empty_entry else pm j.
Proof.
  induction n as [|n IH]; intros a pm j; cbn [destroy_loop].
  - cbn [fst Z.of_nat]. destruct (a / chunk c <=? j) eqn:A, (j <? a / chunk c + 0) eqn:B;
      cbn [andb]; try reflexivity; lia.
  - destruct (destroy_loop c n (a + chunk c) (pm_set pm (a / chunk c) empty_entry)) as [pm' ds] eqn:E.
    cbn [fst]. apply (f_equal fst) in E. cbn [fst] in E. rewrite <- E, IH.
    replace (a + chunk c) with (a + 1 * chunk c) by ring. rewrite div_shift. unfold pm_set.
    set (q := a / chunk c). rewrite Nat2Z.inj_succ.
    destruct (Z.eqb_spec j q) as [->|Ne].
    + destruct (Z.leb_spec (q + 1) q); [lia|]. cbn [andb].
      destruct (Z.leb_spec q q); [|lia]. destruct (Z.ltb_spec q (q + Z.succ (Z.of_nat n))); [reflexivity|lia].
    + destruct (Z.leb_spec (q + 1) j), (Z.leb_spec q j); try lia; cbn [andb]; auto.
      destruct (Z.ltb_spec j (q + 1 + Z.of_nat n)), (Z.ltb_spec j (q + Z.succ (Z.of_nat n)));
        try lia; reflexivity.
Qed.

Lemma destroy_loop_del c : forall n a pm p,
  In p (snd (destroy_loop c n a pm)) ->
  exists j, a / chunk c <= j < a / chunk c + Z.of_nat n /\
    is_backend_owned c (pm j) = false /\ is_sandbox_owned (pm j) = false /\
    remote_of c (e_ras (pm j)) <> 0 /\ p = get_slab_metadata (pm j).
Proof.
  induction n as [|n IH]; intros a pm p; cbn [destroy_loop]; [intros []|].
  destruct (destroy_loop c n (a + chunk c) (pm_set pm (a / chunk c) empty_entry)) as [pm' ds] eqn:E.
  cbn [snd]. intros H. apply in_app_iff in H as [H|H].
  - exists (a / chunk c). split; [lia|].
    destruct (is_backend_owned c (pm (a / chunk c))); cbn [negb] in H; [destruct H|].
    destruct (is_sandbox_owned (pm (a / chunk c))); cbn [negb andb] in H; [destruct H|].
    destruct (Z.eqb_spec (remote_of c (e_ras (pm (a / chunk c)))) 0); cbn [negb] in H; [destruct H|].
    destruct H as [<-|[]]. auto.
  - apply (f_equal snd) in E. cbn [snd] in E. rewrite <- E in H.
    apply IH in H as (j & J1 & J2). replace (a + chunk c) with (a + 1 * chunk c) in J1 by ring.
    rewrite div_shift in J1. exists j. split; [lia|].
    unfold pm_set in J2. destruct (Z.eqb_spec j (a / chunk c)); [lia|]. exact J2.
Qed.

Lemma destroy_steps c shm bits : cfg_ok c -> region_ok c shm bits ->
  chunk_steps c (2 ^ Z.of_nat bits - hdr_size c) = Z.to_nat (2 ^ Z.of_nat bits / chunk c)
  /\ (shm + hdr_size c) / chunk c = shm / chunk c
  /\ 2 ^ Z.of_nat bits = 2 ^ Z.of_nat bits / chunk c * chunk c
  /\ shm = shm / chunk c * chunk c.
Proof.
  intros (C1 & C2 & C3 & _) R. pose proof (chunk_pos c) as P.
  destruct (region_chunk_aligned _ _ _ R) as [u Hu].
  destruct R as (R1 & R2 & R3 & R4 & R5).
  assert (Dv : (chunk c | 2 ^ Z.of_nat bits)) by (apply divide_pow2; lia).
  destruct Dv as [v Hv]. rewrite Hv, Z.div_mul by lia.
  rewrite Hu, Z.div_mul by lia.
  split; [|split; [|split; reflexivity]].
  - unfold chunk_steps. f_equal.
    replace (v * chunk c - hdr_size c + chunk c - 1) with (chunk c - 1 - hdr_size c + v * chunk c) by ring.
    rewrite Z.div_add by lia. rewrite Z.div_small by lia. lia.
  - rewrite Z.add_comm, Z.div_add by lia. rewrite Z.div_small by lia. lia.
Qed.

Lemma library_destroy_eq c b pm : cfg_ok c -> region_ok c (b_shm b) (b_bits b) ->
  library_destroy c pm b
  = destroy_loop c (Z.to_nat (region_size b / chunk c)) (b_shm b + hdr_size c) pm.
Proof.
  intros C R. unfold library_destroy, box_heap.
  rewrite library_heap_eq by (apply region_mapping; auto). cbn [h_top h_base].
  replace (b_shm b + region_size b - (b_shm b + hdr_size c)) with (region_size b - hdr_size c) by ring.
  unfold region_size. rewrite (proj1 (destroy_steps c _ _ C R)). reflexivity.
Qed.

Lemma library_destroy_pm c b pm x : cfg_ok c -> region_ok c (b_shm b) (b_bits b) ->
  fst (library_destroy c pm b) (x / chunk c)
  = if inblk (b_shm b) (region_size b) x
    then assign (pm (x / chunk c)) empty_entry else pm (x / chunk c).
Proof.
  intros C R. rewrite library_destroy_eq by auto. rewrite destroy_loop_pm.
  destruct (destroy_steps c _ _ C R) as (_ & D2 & D3 & D4).
  rewrite D2. unfold region_size. 
  assert (0 <= 2 ^ Z.of_nat (b_bits b) / chunk c).
  { apply Z.div_pos; [apply Z.pow_nonneg; lia|apply chunk_pos]. }
  rewrite Z2Nat.id by auto. rewrite byte_chunk. unfold inblk.
  rewrite Z.mul_add_distr_r, <- D3, <- D4. reflexivity.
Qed.

Lemma layout_kill c st bk i b pm' f :
  layout c st bk -> nth_error (g_box st) i = Some b ->
  layout c (GState pm' (upd i (Sbx (b_shm b) (b_bits b) (b_free b) false) (g_box st)))
           (Book f (upd i (Region (b_shm b) (b_bits b) false) (regions bk))).
Proof.
  intros [B O A] Hi. constructor; cbn [g_box regions].
  - rewrite map_upd, <- B. reflexivity.
  - intros j b' Hj L. rewrite nth_upd in Hj. destruct (Nat.eqb i j).
    + rewrite Hi in Hj. injection Hj as <-. discriminate.
    + eapply O; eauto.
  - intros j k b1 b2 Hj Hk L1 L2 N. rewrite nth_upd in Hj, Hk.
    destruct (Nat.eqb i j) eqn:E1; [rewrite Hi in Hj; injection Hj as <-; discriminate|].
    destruct (Nat.eqb i k) eqn:E2; [rewrite Hi in Hk; injection Hk as <-; discriminate|].
    eapply (A j k b1 b2); eauto.
Qed.

Lemma inv_kill c st bk i b :
  cfg_ok c -> inv c st bk -> nth_error (g_box st) i = Some b -> b_live b = true ->
  inv c (GState (fst (library_destroy c (g_pm st) b))
                (upd i (Sbx (b_shm b) (b_bits b) (b_free b) false) (g_box st)))
        (Book (set_owner (owner bk) (b_shm b) (region_size b) Nobody)
              (upd i (Region (b_shm b) (b_bits b) false) (regions bk))).
Proof.
  intros C I Hi Lv. pose proof (I_layout _ _ _ I) as L.
  pose proof (L_ok _ _ _ L i b Hi Lv) as R. pose proof (chunk_pos c) as P.
  constructor; cbn [g_box g_pm owner regions].
  - apply layout_kill; auto.
  - intros j b' Hj Lj. rewrite nth_upd in Hj. destruct (Nat.eqb i j) eqn:E.
    { rewrite Hi in Hj. injection Hj as <-. discriminate. }
    apply Nat.eqb_neq in E. destruct (I_free _ _ _ I j b' Hj Lj) as [Wj Cj].
    split; [exact Wj|]. intros x. rewrite Cj, set_owner_eq.
    destruct (inblk _ _ x) eqn:Q; [|tauto]. apply inblk_true in Q.
    pose proof (L_apart _ _ _ L i j b b' Hi Hj Lv Lj E) as Ap. unfold apart in Ap. lia.
  - intros x. rewrite set_owner_eq. destruct (inblk _ _ x) eqn:Q; [congruence|]. intros Hx.
    destruct (I_owned_live _ _ _ I x Hx) as (j & b' & Hj & Lj & Rj).
    destruct (Nat.eq_dec i j) as [->|Ne].
    + exfalso. rewrite Hi in Hj. injection Hj as <-.
      assert (inblk (b_shm b) (region_size b) x = true) by (apply inblk_true; lia). congruence.
    + exists j, b'. rewrite upd_other by exact Ne. auto.
  - intros x. rewrite library_destroy_pm by auto. rewrite set_owner_eq.
    destruct (inblk _ _ x).
    + rewrite assign_owned. cbn. split; discriminate.
    + apply (I_mark _ _ _ I).
Qed.

(** ** Creation *)

Lemma layout_create c st bk shm bits :
  layout c st bk -> fresh_region c bk shm bits ->
  layout c (GState (g_pm st) (g_box st ++ [new_box c shm bits]))
           (Book (owner bk) (regions bk ++ [Region shm bits true])).
Proof.
  intros [B O A] (F1 & F2 & F3 & F4 & F5 & F6). constructor; cbn [g_box regions].
  - rewrite map_app, B. reflexivity.
  - intros i b Hi Lv. destruct (Nat.lt_ge_cases i (length (g_box st))) as [L|L].
    + rewrite nth_error_app1 in Hi by exact L. eapply O; eauto.
    + rewrite nth_error_app2 in Hi by exact L.
      destruct (i - length (g_box st))%nat as [|k]; cbn in Hi; [|destruct k; discriminate].
      injection Hi as <-. cbn [b_shm b_bits new_box]. unfold region_ok. auto.
  - assert (N : forall i b, nth_error (g_box st) i = Some b -> b_live b = true ->
               apart b (new_box c shm bits)).
    { intros i b Hi Lv. unfold apart, region_size; cbn [b_shm b_bits new_box].
      apply (F6 (box_region b)).
      - rewrite <- B. apply in_map. eapply nth_error_In; eauto.
      - exact Lv. }
    assert (Sy : forall x y, apart x y -> apart y x) by (unfold apart; tauto).
    intros i j b1 b2 Hi Hj L1 L2 Ne.
    destruct (Nat.lt_ge_cases i (length (g_box st))) as [Li|Li];
      [rewrite nth_error_app1 in Hi by exact Li|rewrite nth_error_app2 in Hi by exact Li];
    (destruct (Nat.lt_ge_cases j (length (g_box st))) as [Lj|Lj];
      [rewrite nth_error_app1 in Hj by exact Lj|rewrite nth_error_app2 in Hj by exact Lj]).
    + eapply (A i j); eauto.
    + destruct (j - length (g_box st))%nat as [|k]; cbn in Hj; [|destruct k; discriminate].
      injection Hj as <-. eapply N; eauto.
    + destruct (i - length (g_box st))%nat as [|k]; cbn in Hi; [|destruct k; discriminate].
      injection Hi as <-. apply Sy. eapply N; eauto.
    + destruct (i - length (g_box st))%nat as [|k] eqn:Ei; cbn in Hi; [|destruct k; discriminate].
      destruct (j - length (g_box st))%nat as [|k] eqn:Ej; cbn in Hj; [|destruct k; discriminate].
      lia.
Qed.

Lemma nth_error_snoc {A} (l : list A) v i b : nth_error (l ++ [v]) i = Some b ->
  nth_error l i = Some b \/ (i = length l /\ b = v).
Proof.
  intros H. destruct (Nat.lt_ge_cases i (length l)) as [L|L].
  - rewrite nth_error_app1 in H by exact L. auto.
  - rewrite nth_error_app2 in H by exact L.
    destruct (i - length l)%nat as [|k] eqn:E; cbn in H; [|destruct k; discriminate].
    injection H as <-. right. split; [lia|reflexivity].
Qed.

Lemma inv_create c st bk shm bits :
  cfg_ok c -> inv c st bk -> fresh_region c bk shm bits ->
  inv c (GState (g_pm st) (g_box st ++ [new_box c shm bits]))
        (Book (owner bk) (regions bk ++ [Region shm bits true])).
Proof.
  intros C I F. pose proof (I_layout _ _ _ I) as L.
  pose proof (layout_create _ _ _ _ _ L F) as L'. pose proof (chunk_pos c) as P.
  destruct C as (C1 & C2 & C3 & _).
  constructor; cbn [g_box g_pm owner regions].
  - exact L'.
  - intros i b Hi Lv. apply nth_error_snoc in Hi as Hi2. destruct Hi2 as [Ho|[-> ->]].
    + exact (I_free _ _ _ I i b Ho Lv).
    + destruct F as (F1 & F2 & F3 & F4 & F5 & F6).
      cbn [new_box b_free b_shm].
      destruct (initial_free_spec shm (cbits c) bits (hdr_size c) ltac:(lia) ltac:(lia) F4) as [W1 W2].
      { fold (chunk c). lia. }
      fold (chunk c) in W1, W2. split; [exact W1|].
      intros x. rewrite W2. unfold region_size; cbn [b_bits new_box].
      split; [|tauto]. intros Hx. split; [exact Hx|].
      destruct (owner bk x) eqn:O; auto; exfalso;
        (destruct (I_owned_live _ _ _ I x) as (j & b' & Hj & Lj & Rj); [congruence|];
         pose proof (L_book _ _ _ L) as B;
         assert (HIn : In (box_region b') (regions bk))
           by (rewrite <- B; apply in_map; eapply nth_error_In; eauto);
         specialize (F6 _ HIn Lj); unfold r_end in F6; cbn [box_region r_start r_bits] in F6;
         unfold region_size in Rj; lia).
  - intros x Hx. destruct (I_owned_live _ _ _ I x Hx) as (j & b' & Hj & Lj & Rj).
    exists j, b'. split; [|auto]. rewrite nth_error_app1; [exact Hj|].
    apply nth_error_Some. congruence.
  - exact (I_mark _ _ _ I).
Qed.

(** ** One step, and histories *)

Lemma on_box_cases st i f : 
  (exists b, nth_error (g_box st) i = Some b /\ b_live b = true /\
     on_box st i f = (GState (fst (fst (f (g_pm st) b))) (upd i (snd (fst (f (g_pm st) b))) (g_box st)),
                      snd (f (g_pm st) b)))
  \/ on_box st i f = (st, Response 99 0).
Proof.
  unfold on_box. destruct (nth_error (g_box st) i) as [b|] eqn:Hi; [|auto].
  destruct (b_live b) eqn:Lv; [|auto]. left. exists b.
  destruct (f (g_pm st) b) as [[pm' b'] r]. auto.
Qed.

Lemma gstate_eta st i b : nth_error (g_box st) i = Some b ->
  GState (g_pm st) (upd i b (g_box st)) = st.
Proof. intros H. rewrite upd_id by exact H. destruct st; reflexivity. Qed.

Lemma book_eta bk : Book (owner bk) (regions bk) = bk.
Proof. destruct bk; reflexivity. Qed.

Lemma in_region_box c st bk i a size : layout c st bk -> in_region bk i a size ->
  exists b, nth_error (g_box st) i = Some b /\ b_live b = true /\
            b_shm b <= a /\ a + size <= b_shm b + region_size b.
Proof.
  intros L (r & Hr & Lv & A & B). rewrite <- (L_book _ _ _ L), nth_error_map in Hr.
  destruct (nth_error (g_box st) i) as [b|]; [|discriminate]. cbn in Hr. injection Hr as <-.
  exists b. auto.
Qed.

Lemma inv_step c st bk ev st' rs :
  cfg_ok c -> inv c st bk -> polite_ok c bk ev -> step c st ev = (st', rs) ->
  inv c st' (note bk (ev, rs)).
Proof.
  intros C I [H P] Hs. pose proof (I_layout _ _ _ I) as L.
  destruct ev as [i rq|i size ras mp|i a size|shm bits|i]; cbn [step] in Hs.
  - destruct (on_box_cases st i (fun pm b => service c pm b rq)) as [(b & Hi & Lv & E)|E];
      rewrite E in Hs; injection Hs as <- <-; [|exact I].
    cbn [hostile_ok] in H.
    destruct (service c (g_pm st) b rq) as [[pm' b'] r] eqn:S. cbn [fst snd].
    pose proof (L_ok _ _ _ L i b Hi Lv) as R.
    apply service_effect in S; auto. destruct S as [rs R0 R1|a free' K CS V A|K CS Ca B1 B2 OB].
    + rewrite gstate_eta by exact Hi. cbn [note].
      destruct (Z.eqb_spec (rs_error rs) 0) as [Z0|]; [|exact I].
      destruct (R1 Z0) as [N0 N1]. apply Z.eqb_neq in N0, N1. rewrite N0, N1. exact I.
    + cbn [note rs_error rs_ret]. rewrite Z.eqb_refl, K, Z.eqb_refl.
      apply (inv_take c st bk i b (rq_0 rq) a free'); auto; [discriminate|].
      rewrite claim_owned. tauto.
    + cbn [note rs_error rs_ret]. rewrite Z.eqb_refl, K. cbn [Z.eqb Pos.eqb].
      apply inv_give; auto. intros x Hx. apply OB in Hx. apply (I_mark _ _ _ I) in Hx. congruence.
  - destruct (on_box_cases st i (fun pm b => host_alloc c pm b size ras mp)) as [(b & Hi & Lv & E)|E];
      rewrite E in Hs; injection Hs as <- <-; [|exact I].
    cbn [hostile_ok] in H. destruct H as (CS & M1 & M2). unfold host_alloc.
    destruct (alloc_range (b_free b) size) as [[a free']|] eqn:A; cbn [fst snd].
    + cbn [note rs_error rs_ret]. rewrite Z.eqb_refl.
      apply (inv_take c st bk i b size a free'); auto; [discriminate|].
      rewrite aligned_ptr_not_owned by exact M1. split; discriminate.
    + rewrite gstate_eta by exact Hi. exact I.
  - destruct (on_box_cases st i (fun pm b => host_free c pm b a size)) as [(b & Hi & Lv & E)|E];
      rewrite E in Hs; injection Hs as <- <-; [|exact I].
    cbn [hostile_ok] in H. destruct H as (CS & Ca & IR). destruct P as [Al Ow].
    unfold host_free, backend_dealloc; cbn [fst snd note rs_error rs_ret]. rewrite Z.eqb_refl.
    destruct (in_region_box _ _ _ _ _ _ L IR) as (b0 & Hi0 & _ & R1 & R2).
    rewrite Hi in Hi0. injection Hi0 as <-.
    apply inv_give; auto.
    + destruct CS as (n & Hn & ->). assert (0 < 2 ^ n) by (apply Z.pow_pos_nonneg; lia).
      destruct (I_owned_live _ _ _ I a) as (j & b' & Hj & Lj & Rj).
      { rewrite (Ow a) by lia. discriminate. }
      destruct (Nat.eq_dec i j) as [->|Ne]; [rewrite Hi in Hj; injection Hj as <-; lia|].
      pose proof (L_apart _ _ _ L i j b b' Hi Hj Lv Lj Ne) as Ap. unfold apart in Ap.
      pose proof (chunk_pos c). lia.
    + intros x Hx. rewrite (Ow x Hx). discriminate.
  - injection Hs as <- <-. cbn [note rs_error]. rewrite Z.eqb_refl. apply inv_create; auto.
  - destruct (on_box_cases st i (fun pm b =>
      (fst (library_destroy c pm b), Sbx (b_shm b) (b_bits b) (b_free b) false, Response 0 0)))
      as [(b & Hi & Lv & E)|E];
      rewrite E in Hs; injection Hs as <- <-; [|exact I].
    cbn [fst snd note rs_error]. rewrite Z.eqb_refl.
    assert (Hr : nth_error (regions bk) i = Some (box_region b)).
    { rewrite <- (L_book _ _ _ L), nth_error_map, Hi. reflexivity. }
    rewrite Hr. cbn [box_region r_start r_bits].
    apply inv_kill; auto.
Qed.

Lemma run_app_state c : forall evs st st' tr,
  run c st evs = (st', tr) -> map fst tr = evs.
Proof.
  induction evs as [|ev r IH]; intros st st' tr H; cbn in H.
  - injection H as <- <-. reflexivity.
  - destruct (step c st ev) as [st1 rs]. destruct (run c st1 r) as [st2 tr2] eqn:E.
    injection H as <- <-. cbn. f_equal. eapply IH; eauto.
Qed.

Lemma inv_run c : cfg_ok c -> forall evs st bk st' tr,
  inv c st bk -> admissible (polite_ok c) c st bk evs -> run c st evs = (st', tr) ->
  inv c st' (fold_left note tr bk).
Proof.
  intros C. induction evs as [|ev r IH]; intros st bk st' tr I A H; cbn in H.
  - injection H as <- <-. exact I.
  - cbn in A. destruct A as [P A]. destruct (step c st ev) as [st1 rs] eqn:S.
    destruct (run c st1 r) as [st2 tr2] eqn:E. injection H as <- <-. cbn [fold_left].
    eapply IH; [|exact A|exact E]. eapply inv_step; eauto.
Qed.

Lemma polite_inv c evs st tr : cfg_ok c -> polite_history c evs ->
  run c init_state evs = (st, tr) -> inv c st (books tr).
Proof. intros C P H. eapply inv_run; eauto. apply inv_init. Qed.

(** ** The invariant of hostile histories *)

Definition remote_ok (c : cfg) (b : sbx) (e : entry) : Prop :=
  remote_of c (e_ras e) = 0 \/
  (b_shm b + 2 * hdr_size c <= remote_of c (e_ras e) /\
   remote_of c (e_ras e) + remote_size c <= b_shm b + region_size b).

Record hinv (c : cfg) (st : gstate) (bk : book) (hp : list Z) : Prop := {
  H_layout : layout c st bk;
  H_free : forall i b, nth_error (g_box st) i = Some b -> b_live b = true ->
           roughl (Z.of_nat (cbits c)) (b_shm b) (Z.of_nat (b_bits b)) (b_free b);
  H_mark : forall x, is_sandbox_owned (g_pm st (x / chunk c)) = true ->
           exists i b, nth_error (g_box st) i = Some b /\ b_live b = true /\
                       b_shm b <= x < b_shm b + region_size b /\
                       remote_ok c b (g_pm st (x / chunk c));
  H_ptr : forall x, let e := g_pm st (x / chunk c) in
           is_sandbox_owned e = false -> is_backend_owned c e = false ->
           remote_of c (e_ras e) = 0 \/ In (get_slab_metadata e) hp }.

Lemma hinv_init c : cfg_ok c -> hinv c init_state empty_book [].
Proof.
  intros C. constructor.
  - exact (I_layout _ _ _ (inv_init c)).
  - intros i b H. destruct i; discriminate.
  - intros x H. discriminate.
  - intros x. cbn. intros _ _. left. apply C.
Qed.

Lemma rough_region c b a s : region_ok c (b_shm b) (b_bits b) ->
  rough (Z.of_nat (cbits c)) (b_shm b) (Z.of_nat (b_bits b)) (a, s) ->
  (chunk c | a) /\ b_shm b <= a /\ a + s <= b_shm b + region_size b.
Proof.
  intros R (n & H1 & H2 & H3 & H4 & H5). cbn [fst snd] in *.
  split; [exact H3|]. split; [exact H4|exact H5].
Qed.

Lemma region_rough_pre c shm bits : region_ok c shm bits ->
  0 <= Z.of_nat (cbits c) <= Z.of_nat bits /\ (2 ^ Z.of_nat bits | shm).
Proof. intros (R1 & R2 & R3 & R4 & R5). split; [lia|exact R4]. Qed.

(** Installing entry [e] over a block of box i. *)
Lemma hinv_set c st bk hp hp' i b a size e free' f :
  cfg_ok c -> hinv c st bk hp -> nth_error (g_box st) i = Some b -> b_live b = true ->
  chunk_size c size -> (chunk c | a) -> b_shm b <= a -> a + size <= b_shm b + region_size b ->
  roughl (Z.of_nat (cbits c)) (b_shm b) (Z.of_nat (b_bits b)) free' ->
  incl hp hp' ->
  (is_sandbox_owned e = true -> remote_ok c b e) ->
  (is_sandbox_owned e = false -> is_backend_owned c e = false ->
   forall old, In (get_slab_metadata (assign old e)) hp') ->
  hinv c (GState (set_metaentry c (g_pm st) a size e)
                 (upd i (Sbx (b_shm b) (b_bits b) free' (b_live b)) (g_box st)))
         (Book f (regions bk)) hp'.
Proof.
  intros C I Hi Lv CS Ca B1 B2 Rf Hincl He1 He2.
  constructor; cbn [g_box g_pm regions].
  - apply layout_upd; auto. exact (H_layout _ _ _ _ I).
  - intros j b' Hj Lj. rewrite nth_upd in Hj. destruct (Nat.eqb i j) eqn:E.
    + rewrite Hi in Hj. injection Hj as <-. exact Rf.
    + exact (H_free _ _ _ _ I j b' Hj Lj).
  - intros x. rewrite set_metaentry_spec by auto. destruct (inblk a size x) eqn:Q.
    + rewrite assign_owned. intros Ho. apply inblk_true in Q. exists i. eexists.
      split; [apply (upd_same _ _ _ _ Hi)|]. cbn [b_live b_shm]. split; [exact Lv|].
      unfold region_size in *; cbn [b_bits]. split; [lia|]. exact (He1 Ho).
    + intros Ho. destruct (H_mark _ _ _ _ I x Ho) as (j & b' & Hj & Lj & Rj & Mj).
      destruct (Nat.eq_dec i j) as [->|Ne].
      * rewrite Hi in Hj. injection Hj as <-. exists j. eexists.
        split; [apply (upd_same _ _ _ _ Hi)|]. auto.
      * exists j, b'. rewrite upd_other by exact Ne. auto.
  - intros x. cbn zeta. rewrite set_metaentry_spec by auto. destruct (inblk a size x).
    + rewrite assign_owned. intros A1 A2. right. apply He2; auto.
    + intros A1 A2. destruct (H_ptr _ _ _ _ I x A1 A2); auto.
Qed.

Lemma backend_entry_owned c old : is_backend_owned c (assign old (backend_entry c)) = true.
Proof. unfold is_backend_owned; cbn. rewrite Z.land_diag. apply Z.eqb_refl. Qed.

Lemma metaentry_valid_remote c b size e : cfg_ok c -> region_ok c (b_shm b) (b_bits b) ->
  is_metaentry_valid c b size e = true -> remote_ok c b e /\ class_bytes c (e_ras e) <= size.
Proof.
  intros C R H. unfold is_metaentry_valid in H. apply andb_true_iff in H as [H1 H2].
  split; [|apply Z.leb_le; exact H2]. unfold remote_ok. apply orb_true_iff in H1 as [H1|H1].
  - left. apply Z.eqb_eq. exact H1.
  - right. apply box_contains in H1; auto; [lia|apply C|apply C].
Qed.

Lemma hinv_step c st bk hp ev st' rs :
  cfg_ok c -> hinv c st bk hp -> hostile_ok c bk ev -> step c st ev = (st', rs) ->
  hinv c st' (note bk (ev, rs)) (hp ++ host_pointers [ev]).
Proof.
  intros C I H Hs. pose proof (H_layout _ _ _ _ I) as L.
  assert (Keep : forall l, hinv c st bk (hp ++ l)).
  { intros l. destruct I as [I1 I2 I3 I4]. constructor; auto.
    intros x e A B. destruct (I4 x A B); auto. right. apply in_or_app. auto. }
  destruct ev as [i rq|i size ras mp|i a size|shm bits|i]; cbn [step] in Hs.
  - destruct (on_box_cases st i (fun pm b => service c pm b rq)) as [(b & Hi & Lv & E)|E];
      rewrite E in Hs; injection Hs as <- <-; [|apply Keep].
    cbn [hostile_ok] in H. cbn [host_pointers flat_map app]. rewrite app_nil_r.
    destruct (service c (g_pm st) b rq) as [[pm' b'] r] eqn:S. cbn [fst snd].
    pose proof (L_ok _ _ _ L i b Hi Lv) as R.
    pose proof (H_free _ _ _ _ I i b Hi Lv) as Rf.
    destruct (region_rough_pre _ _ _ R) as [P1 P2].
    apply service_effect in S; auto. destruct S as [rs R0 R1|a free' K CS V A|K CS Ca B1 B2 OB].
    + rewrite gstate_eta by exact Hi. cbn [note].
      destruct (Z.eqb_spec (rs_error rs) 0) as [Z0|]; [|exact I].
      destruct (R1 Z0) as [N0 N1]. apply Z.eqb_neq in N0, N1. rewrite N0, N1. exact I.
    + cbn [note rs_error rs_ret]. rewrite Z.eqb_refl, K, Z.eqb_refl.
      destruct CS as (n & Hn & Hsz). rewrite Hsz in A.
      destruct (remove_block_f_rough _ _ _ P1 P2 _ _ _ _ _ Hn Rf A) as [F1 F2].
      destruct (rough_region _ _ _ _ R F2) as (G1 & G2 & G3). rewrite <- Hsz in G3.
      eapply hinv_set; eauto.
      * exists n. auto.
      * apply incl_refl.
      * intros _. apply (metaentry_valid_remote _ _ _ _ C R V).
      * rewrite claim_owned. discriminate.
    + cbn [note rs_error rs_ret]. rewrite Z.eqb_refl, K. cbn [Z.eqb Pos.eqb].
      pose proof (chunk_pos c).
      eapply hinv_set; eauto; try lia.
      * destruct CS as (n & Hn & Hsz). apply add_block_f_rough; auto.
        exists n. cbn [fst snd]. repeat split; auto; try lia.
      * apply incl_refl.
      * cbn. discriminate.
      * intros _ X. exfalso. unfold is_backend_owned in X; cbn in X.
        rewrite Z.land_diag, Z.eqb_refl in X. discriminate.
  - destruct (on_box_cases st i (fun pm b => host_alloc c pm b size ras mp)) as [(b & Hi & Lv & E)|E];
      rewrite E in Hs; injection Hs as <- <-; [|apply Keep].
    cbn [hostile_ok] in H. destruct H as (CS & M1 & M2). unfold host_alloc.
    pose proof (L_ok _ _ _ L i b Hi Lv) as R.
    pose proof (H_free _ _ _ _ I i b Hi Lv) as Rf.
    destruct (region_rough_pre _ _ _ R) as [P1 P2].
    destruct (alloc_range (b_free b) size) as [[a free']|] eqn:A; cbn [fst snd].
    + cbn [note rs_error rs_ret]. rewrite Z.eqb_refl.
      pose proof CS as (n & Hn & Hsz). rewrite Hsz in A.
      destruct (remove_block_f_rough _ _ _ P1 P2 _ _ _ _ _ Hn Rf A) as [F1 F2].
      destruct (rough_region _ _ _ _ R F2) as (G1 & G2 & G3). rewrite <- Hsz in G3.
      eapply hinv_set; eauto.
      * intros x Hx. apply in_or_app. auto.
      * rewrite aligned_ptr_not_owned by exact M1. discriminate.
      * intros _ _ old. rewrite slab_of_aligned by auto. apply in_or_app. right. left. reflexivity.
    + rewrite gstate_eta by exact Hi. apply Keep.
  - destruct (on_box_cases st i (fun pm b => host_free c pm b a size)) as [(b & Hi & Lv & E)|E];
      rewrite E in Hs; injection Hs as <- <-; [|apply Keep].
    cbn [hostile_ok] in H. destruct H as (CS & Ca & IR). cbn [host_pointers flat_map app]. rewrite app_nil_r.
    unfold host_free, backend_dealloc; cbn [fst snd note rs_error rs_ret]. rewrite Z.eqb_refl.
    destruct (in_region_box _ _ _ _ _ _ L IR) as (b0 & Hi0 & _ & R1 & R2).
    rewrite Hi in Hi0. injection Hi0 as <-.
    pose proof (L_ok _ _ _ L i b Hi Lv) as R.
    pose proof (H_free _ _ _ _ I i b Hi Lv) as Rf.
    destruct (region_rough_pre _ _ _ R) as [P1 P2].
    eapply hinv_set; eauto.
    + destruct CS as (n & Hn & Hsz). apply add_block_f_rough; auto.
      exists n. cbn [fst snd]. repeat split; auto.
    + apply incl_refl.
    + cbn. discriminate.
    + intros _ X. exfalso. unfold is_backend_owned in X; cbn in X.
      rewrite Z.land_diag, Z.eqb_refl in X. discriminate.
  - injection Hs as <- <-. cbn [note rs_error host_pointers flat_map app]. rewrite Z.eqb_refl, app_nil_r.
    cbn [hostile_ok] in H. destruct I as [I1 I2 I3 I4]. constructor; cbn [g_box g_pm].
    + apply layout_create; auto.
    + intros i b Hi Lv. apply nth_error_snoc in Hi as [Ho|[-> ->]]; [eauto|].
      destruct H as (F1 & F2 & F3 & F4 & F5 & F6).
      cbn [new_box b_free b_shm b_bits].
      destruct C as (C1 & C2 & C3 & _).
      destruct (initial_free_spec shm (cbits c) bits (hdr_size c) ltac:(lia) ltac:(lia) F4) as [[W1 _] W2].
      { fold (chunk c). pose proof (chunk_pos c). lia. }
      fold (chunk c) in W1, W2. intros bl Hbl. destruct (W1 bl Hbl) as (n & N1 & N2 & N3).
      assert (Pn : 0 < 2 ^ n) by (apply Z.pow_pos_nonneg; lia).
      assert (Q1 : shm + chunk c <= fst bl < shm + 2 ^ Z.of_nat bits).
      { apply W2. exists bl. split; [exact Hbl|]. unfold inb. lia. }
      assert (Q2 : shm + chunk c <= fst bl + snd bl - 1 < shm + 2 ^ Z.of_nat bits).
      { apply W2. exists bl. split; [exact Hbl|]. unfold inb. lia. }
      pose proof (chunk_pos c). exists n. repeat split; auto; try lia.
      apply Z.divide_trans with (2 ^ n); [apply divide_pow2; lia|exact N3].
    + intros x Hx. destruct (I3 x Hx) as (j & b' & Hj & Lj & Rj & Mj).
      exists j, b'. split; [|auto]. rewrite nth_error_app1; [exact Hj|].
      apply nth_error_Some. congruence.
    + exact I4.
  - destruct (on_box_cases st i (fun pm b =>
      (fst (library_destroy c pm b), Sbx (b_shm b) (b_bits b) (b_free b) false, Response 0 0)))
      as [(b & Hi & Lv & E)|E];
      rewrite E in Hs; injection Hs as <- <-; [|apply Keep].
    cbn [fst snd note rs_error host_pointers flat_map app]. rewrite Z.eqb_refl, app_nil_r.
    assert (Hr : nth_error (regions bk) i = Some (box_region b)).
    { rewrite <- (L_book _ _ _ L), nth_error_map, Hi. reflexivity. }
    rewrite Hr. cbn [box_region r_start r_bits].
    pose proof (L_ok _ _ _ L i b Hi Lv) as R.
    constructor; cbn [g_box g_pm].
    + apply layout_kill; auto.
    + intros j b' Hj Lj. rewrite nth_upd in Hj. destruct (Nat.eqb i j) eqn:E2.
      { rewrite Hi in Hj. injection Hj as <-. discriminate. }
      exact (H_free _ _ _ _ I j b' Hj Lj).
    + intros x. rewrite library_destroy_pm by auto. destruct (inblk _ _ x) eqn:Q.
      { rewrite assign_owned. discriminate. }
      intros Hx. destruct (H_mark _ _ _ _ I x Hx) as (j & b' & Hj & Lj & Rj & Mj).
      destruct (Nat.eq_dec i j) as [->|Ne].
      * exfalso. rewrite Hi in Hj. injection Hj as <-. apply inblk_true in Rj. congruence.
      * exists j, b'. rewrite upd_other by exact Ne. auto.
    + intros x. cbn zeta. rewrite library_destroy_pm by auto. destruct (inblk _ _ x).
      { intros _ _. left. cbn. apply C. }
      intros A B. exact (H_ptr _ _ _ _ I x A B).
Qed.

Lemma hinv_run c : cfg_ok c -> forall evs st bk hp st' tr,
  hinv c st bk hp -> admissible (hostile_ok c) c st bk evs -> run c st evs = (st', tr) ->
  hinv c st' (fold_left note tr bk) (hp ++ host_pointers evs).
Proof.
  intros C. induction evs as [|ev r IH]; intros st bk hp st' tr I A H; cbn in H.
  - injection H as <- <-. cbn. rewrite app_nil_r. exact I.
  - cbn in A. destruct A as [P A]. destruct (step c st ev) as [st1 rs] eqn:S.
    destruct (run c st1 r) as [st2 tr2] eqn:E. injection H as <- <-. cbn [fold_left].
    pose proof (hinv_step _ _ _ _ _ _ _ C I P S) as I1.
    pose proof (IH _ _ _ _ _ I1 A E) as I2.
    replace (hp ++ host_pointers (ev :: r)) with ((hp ++ host_pointers [ev]) ++ host_pointers r);
      [exact I2|].
    rewrite <- app_assoc. f_equal. unfold host_pointers. cbn [flat_map]. rewrite app_nil_r. reflexivity.
Qed.

Lemma hostile_inv c evs st tr : cfg_ok c -> hostile_history c evs ->
  run c init_state evs = (st, tr) -> hinv c st (books tr) (host_pointers evs).
Proof. intros C P H. eapply (hinv_run c C evs _ _ []); eauto. apply hinv_init; auto. Qed.

Lemma polite_is_hostile c evs : forall st bk,
  admissible (polite_ok c) c st bk evs -> admissible (hostile_ok c) c st bk evs.
Proof.
  induction evs as [|ev r IH]; intros st bk A; cbn in *; [exact Logic.I|].
  destruct A as [[P _] A]. split; [exact P|]. destruct (step c st ev). auto.
Qed.

(** ** Completeness of the buddy allocator: failure means exhaustion *)

Definition merged (l : list block) : Prop :=
  forall a s, In (a, s) l -> ~ In (Z.lxor a s, s) l.

Lemma merged_sub l l' : (forall b, In b l' -> In b l) -> merged l -> merged l'.
Proof. intros H M a s A B. exact (M a s (H _ A) (H _ B)). Qed.

Lemma lxor_back a s : Z.lxor (Z.lxor a s) s = a.
Proof. rewrite Z.lxor_assoc, Z.lxor_nilpotent. apply Z.lxor_0_r. Qed.

Lemma add_block_f_merged : forall fuel free a s,
  (length free <= fuel)%nat -> s <> 0 -> merged free -> merged (add_block_f fuel free a s).
Proof.
  assert (Base : forall free a s, s <> 0 -> merged free -> ~ In (Z.lxor a s, s) free ->
                 merged ((a, s) :: free)).
  { intros free a s Hs M N x t [X|X] [Y|Y].
    - injection X as <- <-. injection Y as Y. apply (lxor_self_neq a s); auto.
    - injection X as <- <-. exact (N Y).
    - injection Y as Y1 Y2. subst t. rewrite Y1 in N. rewrite lxor_back in N. exact (N X).
    - exact (M x t X Y). }
  induction fuel as [|f IH]; intros free a s Hl Hs M; cbn [add_block_f].
  - destruct free; [|cbn in Hl; lia]. apply Base; auto.
  - destruct (mem_block (Z.lxor a s, s) free) eqn:E.
    + apply mem_block_In in E. pose proof (del_block_perm _ _ E) as P.
      apply Permutation.Permutation_length in P. cbn in P.
      apply IH; [lia|lia|]. eapply merged_sub; [|exact M]. intros b Hb. eapply del_block_incl; eauto.
    + apply Base; auto. intros X. apply mem_block_In in X. congruence.
Qed.

Lemma remove_block_f_merged : forall fuel free n a free',
  0 <= n -> merged free -> remove_block_f fuel free (2 ^ n) = Some (a, free') -> merged free'.
Proof.
  induction fuel as [|f IH]; intros free n a free' Hn M H; cbn [remove_block_f] in H.
  - destruct (min_block free (2 ^ n)) as [b|]; [|discriminate]. injection H as <- <-.
    eapply merged_sub; [|exact M]. intros d Hd. eapply del_block_incl; eauto.
  - destruct (min_block free (2 ^ n)) as [b|].
    + injection H as <- <-.
      eapply merged_sub; [|exact M]. intros d Hd. eapply del_block_incl; eauto.
    + replace (2 * 2 ^ n) with (2 ^ (n + 1)) in H by (rewrite Z.pow_add_r by lia; lia).
      destruct (remove_block_f f free (2 ^ (n + 1))) as [[b fr]|] eqn:E; [|discriminate].
      injection H as <- <-. apply add_block_f_merged; [reflexivity| |].
      * assert (0 < 2 ^ n) by (apply Z.pow_pos_nonneg; lia). lia.
      * eapply IH; [|exact M|exact E]. lia.
Qed.

(** Two aligned power-of-two blocks are nested if the smaller's start is in the larger. *)
Lemma aligned_nested a n b m x : 0 <= n <= m -> (2 ^ n | a) -> (2 ^ m | b) ->
  inb (a, 2 ^ n) x -> inb (b, 2 ^ m) x -> b <= a /\ a + 2 ^ n <= b + 2 ^ m.
Proof.
  intros Hn [q ->] [u ->] [A1 A2] [B1 B2]; cbn [fst snd] in *.
  assert (P : 0 < 2 ^ n) by (apply Z.pow_pos_nonneg; lia).
  assert (E : 2 ^ m = 2 ^ (m - n) * 2 ^ n) by (rewrite <- Z.pow_add_r by lia; f_equal; lia).
  rewrite E in *. set (k := 2 ^ (m - n)) in *.
  assert (u * k < q + 1) by (apply Z.mul_lt_mono_pos_r with (2 ^ n); lia).
  assert (q < u * k + k) by (apply Z.mul_lt_mono_pos_r with (2 ^ n); lia).
  split.
  - rewrite Z.mul_assoc. apply Z.mul_le_mono_nonneg_r; lia.
  - assert ((q + 1) * 2 ^ n <= (u * k + k) * 2 ^ n) by (apply Z.mul_le_mono_nonneg_r; lia). lia.
Qed.

Lemma merged_complete cb free : 0 <= cb -> wfl cb free -> merged free ->
  forall k a, let n := cb + Z.of_nat k in
  (2 ^ n | a) -> (forall x, inb (a, 2 ^ n) x -> covers free x) ->
  exists b m, In (b, 2 ^ m) free /\ n <= m /\ (2 ^ m | b) /\ b <= a /\ a + 2 ^ n <= b + 2 ^ m.
Proof.
  intros Hcb [W1 _] M. induction k as [|k IH]; intros a n Al Cv.
  - assert (P : 0 < 2 ^ n) by (apply Z.pow_pos_nonneg; lia).
    destruct (Cv a) as ([b s] & Hb & Hin); [unfold inb; cbn [fst snd]; lia|].
    destruct (W1 _ Hb) as (m & M1 & M2 & M3). cbn [fst snd] in *. subst s.
    exists b, m. split; [exact Hb|]. split; [lia|]. split; [exact M3|].
    apply (aligned_nested a n b m a); auto; [lia|unfold inb; cbn [fst snd]; lia].
  - set (n0 := cb + Z.of_nat k) in *.
    assert (En : n = n0 + 1) by (unfold n, n0; lia). clearbody n. subst n.
    assert (P : 0 < 2 ^ n0) by (apply Z.pow_pos_nonneg; lia).
    assert (E2 : 2 ^ (n0 + 1) = 2 * 2 ^ n0) by (rewrite Z.pow_add_r by lia; lia).
    assert (Al0 : (2 ^ n0 | a)).
    { apply Z.divide_trans with (2 ^ (n0 + 1)); [apply divide_pow2; lia|exact Al]. }
    destruct (IH a Al0) as (b1 & m1 & A1 & A2 & A3 & A4 & A5).
    { intros x Hx. apply Cv. unfold inb in *; cbn [fst snd] in *. lia. }
    destruct (IH (a + 2 ^ n0)) as (b2 & m2 & B1 & B2 & B3 & B4 & B5).
    { apply Z.divide_add_r; [exact Al0|apply Z.divide_refl]. }
    { intros x Hx. apply Cv. unfold inb in *; cbn [fst snd] in *. lia. }
    destruct (Z_lt_le_dec n0 m1) as [L1|L1].
    { exists b1, m1. split; [exact A1|]. split; [lia|]. split; [exact A3|].
      apply (aligned_nested a (n0 + 1) b1 m1 a); auto; [lia| |];
        unfold inb; cbn [fst snd].
      all: lia. }
    destruct (Z_lt_le_dec n0 m2) as [L2|L2].
    { exists b2, m2. split; [exact B1|]. split; [lia|]. split; [exact B3|].
      apply (aligned_nested a (n0 + 1) b2 m2 (a + 2 ^ n0)); auto; [lia| |];
        unfold inb; cbn [fst snd].
      all: lia. }
    exfalso. assert (m1 = n0) by lia. assert (m2 = n0) by lia. subst m1 m2.
    assert (b1 = a) by lia. assert (b2 = a + 2 ^ n0) by lia. subst b1 b2.
    apply (M a (2 ^ n0) A1). destruct Al as [u Hu].
    replace (Z.lxor a (2 ^ n0)) with (a + 2 ^ n0); [exact B1|].
    replace a with ((2 * u) * 2 ^ n0) by lia. rewrite lxor_buddy by lia.
    rewrite Z.even_mul. reflexivity.
Qed.

Lemma fold_add_merged : forall l free, merged free -> (forall b, In b l -> snd b <> 0) ->
  merged (fold_left (fun fr b => dealloc_range fr (fst b) (snd b)) l free).
Proof.
  induction l as [|b l IH]; intros free M H; cbn [fold_left]; [exact M|].
  apply IH.
  - apply add_block_f_merged; auto. apply H. left; reflexivity.
  - intros d Hd. apply H. right; exact Hd.
Qed.

Lemma pow2_blocks_f_nz : forall fuel base len b, In b (pow2_blocks_f fuel base len) -> snd b <> 0.
Proof.
  induction fuel as [|f IH]; intros base len b H; cbn [pow2_blocks_f] in H; [destruct H|].
  destruct (len <? 8) eqn:E; [destruct H|]. destruct H as [<-|H]; [|eapply IH; eauto].
  cbn [snd]. apply Z.pow_nonzero; [lia|]. apply Z.min_glb; [|apply Z.log2_nonneg].
  generalize 64%nat. intros g. revert base. clear. induction g as [|g IH]; intros base; cbn [ctz_f]; [lia|].
  destruct (Z.even base); [|lia]. specialize (IH (base / 2)). lia.
Qed.

(** All free lists are merged, in every history with a sensible host. *)
Definition all_merged (st : gstate) : Prop :=
  forall i b, nth_error (g_box st) i = Some b -> merged (b_free b).

Lemma merged_step c st bk ev st' rs : 
  all_merged st -> hostile_ok c bk ev -> step c st ev = (st', rs) -> all_merged st'.
Proof.
  intros M H Hs.
  assert (U : forall i v pm, merged (b_free v) -> all_merged (GState pm (upd i v (g_box st)))).
  { intros i v pm Mv j b Hj. cbn [g_box] in Hj. rewrite nth_upd in Hj.
    destruct (Nat.eqb i j).
    - destruct (nth_error (g_box st) i); [|discriminate]. injection Hj as <-. exact Mv.
    - eapply M; eauto. }
  destruct ev as [i rq|i size ras mp|i a size|shm bits|i]; cbn [step] in Hs.
  - destruct (on_box_cases st i (fun pm b => service c pm b rq)) as [(b & Hi & Lv & E)|E];
      rewrite E in Hs; injection Hs as <- <-; [|exact M].
    apply U. unfold service. destruct (rq_kind rq =? 0).
    + unfold service_alloc.
      destruct ((rq_0 rq <? chunk c) || negb (is_pow2 (rq_0 rq))) eqn:S; [exact (M _ _ Hi)|].
      destruct (negb (is_metaentry_valid _ _ _ _)); [exact (M _ _ Hi)|].
      destruct (alloc_range (b_free b) (rq_0 rq)) as [[a free']|] eqn:A; [|exact (M _ _ Hi)]. cbn [fst snd b_free].
      destruct H as (W0 & _). apply size_ok in S; auto. destruct S as (n & Hn & Hsz). rewrite Hsz in A.
      eapply remove_block_f_merged; [| |exact A]; [lia|exact (M _ _ Hi)].
    + destruct (rq_kind rq =? 1); [|exact (M _ _ Hi)]. unfold service_dealloc.
      destruct (negb (contains _ _ _)); [exact (M _ _ Hi)|].
      destruct (is_pow2 (rq_1 rq) && (chunk c <=? rq_1 rq)) eqn:X; cbn [negb]; [|exact (M _ _ Hi)].
      destruct (negb (_ =? _)); [exact (M _ _ Hi)|].
      destruct (negb (all_sandbox_owned _ _ _ _)); [exact (M _ _ Hi)|].
      unfold backend_dealloc. cbn [fst snd b_free].
      apply add_block_f_merged; [reflexivity| |exact (M _ _ Hi)].
      apply andb_true_iff in X as [_ X].
      pose proof (chunk_pos c). lia.
  - destruct (on_box_cases st i (fun pm b => host_alloc c pm b size ras mp)) as [(b & Hi & Lv & E)|E];
      rewrite E in Hs; injection Hs as <- <-; [|exact M].
    apply U. unfold host_alloc. destruct (alloc_range (b_free b) size) as [[a free']|] eqn:A; [|exact (M _ _ Hi)].
    cbn [fst snd b_free]. destruct H as ((n & Hn & Hsz) & _). rewrite Hsz in A.
    eapply remove_block_f_merged; [| |exact A]; [lia|exact (M _ _ Hi)].
  - destruct (on_box_cases st i (fun pm b => host_free c pm b a size)) as [(b & Hi & Lv & E)|E];
      rewrite E in Hs; injection Hs as <- <-; [|exact M].
    apply U. cbn [fst snd b_free host_free backend_dealloc]. apply add_block_f_merged; [reflexivity| |exact (M _ _ Hi)].
    destruct H as ((n & Hn & Hsz) & _). rewrite Hsz. apply Z.pow_nonzero; lia.
  - injection Hs as <- <-. intros i b Hi. cbn [g_box] in Hi.
    apply nth_error_snoc in Hi as [Ho|[_ ->]]; [exact (M _ _ Ho)|].
    unfold new_box, initial_free, pow2_blocks; cbn [b_free].
    apply fold_add_merged; [intros x s []|]. intros b. apply pow2_blocks_f_nz.
  - destruct (on_box_cases st i (fun pm b =>
      (fst (library_destroy c pm b), Sbx (b_shm b) (b_bits b) (b_free b) false, Response 0 0)))
      as [(b & Hi & Lv & E)|E]; rewrite E in Hs; injection Hs as <- <-; [|exact M].
    apply U. exact (M _ _ Hi).
Qed.

Lemma merged_run c : forall evs st bk st' tr,
  all_merged st -> admissible (hostile_ok c) c st bk evs -> run c st evs = (st', tr) -> all_merged st'.
Proof.
  induction evs as [|ev r IH]; intros st bk st' tr M A H; cbn in H.
  - injection H as <- <-. exact M.
  - cbn in A. destruct A as [P A]. destruct (step c st ev) as [st1 rs] eqn:S.
    destruct (run c st1 r) as [st2 tr2] eqn:E. injection H as <- <-.
    eapply IH; [|exact A|exact E]. eapply merged_step; eauto.
Qed.
