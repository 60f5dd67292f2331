(** Proofs about RegionModel.v. *)
From Coq Require Import String Ascii List ZArith Lia Bool.
From Verif Require Import Base RegionModel RegionSpec.
Import ListNotations.
Open Scope Z_scope.

Lemma W_pos : 0 < W.
Proof. reflexivity. Qed.

Lemma wrap_small x : is_word x -> wrap x = x.
Proof. intros H. apply Z.mod_small. exact H. Qed.

Lemma wrap_range x : 0 <= wrap x < W.
Proof. apply Z.mod_pos_bound. exact W_pos. Qed.

Lemma library_heap_eq shm size hdr :
  mapping_ok shm size hdr ->
  library_heap shm size hdr = Heap (shm + hdr) (shm + size) hdr.
Proof.
  intros (H1 & H2 & H3 & H4). unfold library_heap, local_state, pointer_offset.
  pose proof W_pos.
  rewrite (wrap_small (shm + hdr)) by (unfold is_word; lia).
  rewrite (wrap_small (size - hdr)) by (unfold is_word; lia).
  rewrite wrap_small by (unfold is_word; lia).
  f_equal; lia.
Qed.

Lemma contains_iff shm size hdr p n :
  mapping_ok shm size hdr -> is_word p -> is_word n ->
  contains (library_heap shm size hdr) p n = true
  <-> shm + 2 * hdr <= p /\ p < shm + size /\ p + n <= shm + size.
Proof.
  intros M Hp Hn. rewrite library_heap_eq by exact M.
  destruct M as (H1 & H2 & H3 & H4). unfold is_word in *.
  unfold contains, pointer_offset, pointer_diff; cbn [h_base h_top h_hdr].
  rewrite (wrap_small (shm + hdr + hdr)) by (unfold is_word; lia).
  rewrite !andb_true_iff, Z.leb_le, Z.ltb_lt, Z.leb_le.
  split.
  - intros [[A B] C]. rewrite wrap_small in C by (unfold is_word; lia). lia.
  - intros (A & B & C). rewrite wrap_small by (unfold is_word; lia). lia.
Qed.

(** ** strnlen / memcpy *)

Lemma strnlen_bound rd : forall k t p n t' tr,
  strnlen rd t p k = (n, t', tr) ->
  0 <= n <= Z.of_nat k /\ (forall x, In x tr -> p <= x < p + Z.of_nat k).
Proof.
  induction k as [|k IH]; intros t p n t' tr H.
  - injection H as <- <- <-. split; [lia|intros x []].
  - cbn [strnlen] in H. destruct (ascii_dec (rd t p) nul).
    + injection H as <- <- <-. split; [lia|].
      intros x [<-|[]]. lia.
    + destruct (strnlen rd (S t) (p + 1) k) as [[n1 t1] tr1] eqn:E.
      injection H as <- <- <-. destruct (IH _ _ _ _ _ E) as [A B]. split; [lia|].
      intros x [<-|Hx]; [lia|]. specialize (B x Hx). lia.
Qed.

Lemma memcpy_out_facts rd : forall k t p bs t' tr,
  memcpy_out rd t p k = (bs, t', tr) ->
  length bs = k /\ (forall x, In x tr -> p <= x < p + Z.of_nat k).
Proof.
  induction k as [|k IH]; intros t p bs t' tr H.
  - injection H as <- <- <-. split; [reflexivity|intros x []].
  - cbn [memcpy_out] in H.
    destruct (memcpy_out rd (S t) (p + 1) k) as [[b1 t1] tr1] eqn:E.
    injection H as <- <- <-. destruct (IH _ _ _ _ _ E) as [A B]. split; [cbn; lia|].
    intros x [<-|Hx]; [lia|]. specialize (B x Hx). lia.
Qed.

Lemma c_view_terminated bs : exists s, c_view (bs ++ [nul]) = Some s.
Proof.
  induction bs as [|c r [s IH]]; cbn; [eexists; reflexivity|].
  destruct (ascii_dec c nul); [eauto|]. rewrite IH. eauto.
Qed.

(** Stable memory. *)
Definition stable (m : Z -> ascii) : reads := fun _ a => m a.

Fixpoint mem_slice (m : Z -> ascii) (p : Z) (n : nat) : list ascii :=
  match n with O => [] | S k => m p :: mem_slice m (p + 1) k end.

Lemma memcpy_stable m : forall k t p bs t' tr,
  memcpy_out (stable m) t p k = (bs, t', tr) -> bs = mem_slice m p k.
Proof.
  induction k as [|k IH]; intros t p bs t' tr H.
  - injection H as <- <- <-. reflexivity.
  - cbn [memcpy_out] in H.
    destruct (memcpy_out (stable m) (S t) (p + 1) k) as [[b1 t1] tr1] eqn:E.
    injection H as <- <- <-. cbn. f_equal. exact (IH _ _ _ _ _ E).
Qed.

Lemma mem_slice_nth m : forall k p i c,
  nth_error (mem_slice m p k) i = Some c -> m (p + Z.of_nat i) = c.
Proof.
  induction k as [|k IH]; intros p i c H.
  - destruct i; discriminate.
  - destruct i as [|i]; cbn in H.
    + injection H as <-. f_equal. lia.
    + apply IH in H. rewrite <- H. f_equal. lia.
Qed.

Lemma mem_slice_length m : forall k p, length (mem_slice m p k) = k.
Proof. induction k; intros; cbn; congruence. Qed.

Lemma strnlen_stable_hit m : forall k t p s,
  cstring_at m p s -> (length s < k)%nat ->
  exists t' tr, strnlen (stable m) t p k = (Z.of_nat (length s), t', tr).
Proof.
  induction k as [|k IH]; intros t p s [Hs Hend] Hlen; [lia|].
  destruct s as [|c s].
  - cbn [strnlen]. unfold stable at 1. cbn [length] in Hend.
    replace (p + Z.of_nat 0) with p in Hend by lia.
    destruct (ascii_dec (m p) nul); [|congruence]. cbn. eauto.
  - assert (H0 : m p = c /\ c <> nul).
    { specialize (Hs 0%nat c eq_refl). replace (p + Z.of_nat 0) with p in Hs by lia. exact Hs. }
    destruct H0 as [H0 H1].
    cbn [strnlen]. unfold stable at 1.
    destruct (ascii_dec (m p) nul); [congruence|].
    destruct (IH (S t) (p + 1) s) as (t' & tr & E).
    + split.
      * intros i d Hi. specialize (Hs (S i) d Hi).
        replace (p + 1 + Z.of_nat i) with (p + Z.of_nat (S i)) by lia. exact Hs.
      * rewrite <- Hend. f_equal. cbn [length]. lia.
    + cbn [length] in Hlen. lia.
    + rewrite E. exists t', (p :: tr). f_equal. f_equal. cbn [length]. lia.
Qed.

Lemma strnlen_stable_inv m : forall k t p n t' tr,
  strnlen (stable m) t p k = (n, t', tr) -> n < Z.of_nat k ->
  cstring_at m p (mem_slice m p (Z.to_nat n)).
Proof.
  induction k as [|k IH]; intros t p n t' tr H Hn.
  - injection H as <- <- <-. lia.
  - cbn [strnlen] in H. unfold stable at 1 in H. destruct (ascii_dec (m p) nul) as [e|e].
    + injection H as <- <- <-. cbn. split.
      * intros [|i] c Hc; discriminate.
      * cbn. rewrite <- e. f_equal. lia.
    + destruct (strnlen (stable m) (S t) (p + 1) k) as [[n1 t1] tr1] eqn:E.
      injection H as <- <- <-.
      pose proof (strnlen_bound _ _ _ _ _ _ _ E) as [B _].
      destruct (IH _ _ _ _ _ E ltac:(lia)) as [A1 A2].
      rewrite mem_slice_length in A2.
      replace (Z.to_nat (n1 + 1)) with (S (Z.to_nat n1)) by lia.
      cbn [mem_slice]. split.
      * intros [|i] c Hc; cbn in Hc.
        { injection Hc as <-. split; [f_equal; lia|exact e]. }
        { specialize (A1 i c Hc). replace (p + Z.of_nat (S i)) with (p + 1 + Z.of_nat i) by lia.
          exact A1. }
      * cbn [length]. rewrite mem_slice_length.
        replace (p + Z.of_nat (S (Z.to_nat n1))) with (p + 1 + Z.of_nat (Z.to_nat n1)) by lia.
        exact A2.
Qed.

Lemma cstring_unique m : forall s1 s2 p,
  cstring_at m p s1 -> cstring_at m p s2 -> s1 = s2.
Proof.
  induction s1 as [|c s1 IH]; intros [|d s2] p [A1 A2] [B1 B2]; auto.
  - exfalso. destruct (B1 0%nat d eq_refl) as [X Y]. cbn in A2, X. congruence.
  - exfalso. destruct (A1 0%nat c eq_refl) as [X Y]. cbn in B2, X. congruence.
  - destruct (A1 0%nat c eq_refl) as [X Y]. destruct (B1 0%nat d eq_refl) as [X' Y'].
    f_equal; [congruence|]. apply (IH s2 (p + 1)).
    + split.
      * intros i e Hi. replace (p + 1 + Z.of_nat i) with (p + Z.of_nat (S i)) by lia.
        apply A1. exact Hi.
      * rewrite <- A2. f_equal. cbn [length]. lia.
    + split.
      * intros i e Hi. replace (p + 1 + Z.of_nat i) with (p + Z.of_nat (S i)) by lia.
        apply B1. exact Hi.
      * rewrite <- B2. f_equal. cbn [length]. lia.
Qed.

Lemma strdup_out_safe shm size hdr rd mok str r :
  mapping_ok shm size hdr -> is_word str ->
  strdup_out (library_heap shm size hdr) rd mok str = Ret r ->
  (forall x, In x (dup_trace r) -> shm + 2 * hdr <= x < shm + size) /\
  (forall buf, dup_buf r = Some buf ->
     (exists bytes, buf = bytes ++ [nul]) /\
     Z.of_nat (length buf) <= shm + size - str /\
     exists s, c_view buf = Some s).
Proof.
  intros M Hs. unfold strdup_out.
  destruct (contains (library_heap shm size hdr) str 1) eqn:C.
  2:{ intros H. injection H as <-. cbn [dup_trace dup_buf]. split; [intros x []|discriminate]. }
  apply contains_iff in C; [|exact M|exact Hs|unfold is_word, W; lia].
  rewrite library_heap_eq by exact M. cbn [h_top]. unfold mapping_ok in M.
  destruct (strnlen rd 0 str (Z.to_nat (shm + size - str))) as [[len t] tr] eqn:E.
  pose proof (strnlen_bound _ _ _ _ _ _ _ E) as [B1 B2].
  destruct (len =? shm + size - str) eqn:Q.
  - intros H. injection H as <-. cbn [dup_trace dup_buf]. split; [|discriminate].
    intros x Hx. specialize (B2 x Hx).
    lia.
  - destruct mok; [|discriminate].
    destruct (memcpy_out rd t str (Z.to_nat len)) as [[bs t2] tr2] eqn:E2.
    pose proof (memcpy_out_facts _ _ _ _ _ _ _ E2) as [D1 D2].
    intros H. injection H as <-. cbn [dup_trace dup_buf]. apply Z.eqb_neq in Q. split.
    + intros x Hx. apply in_app_iff in Hx as [Hx|Hx].
      * specialize (B2 x Hx). lia.
      * specialize (D2 x Hx). lia.
    + intros buf HH. injection HH as <-. split; [eauto|]. split.
      * rewrite app_length. cbn [length]. lia.
      * apply c_view_terminated.
Qed.

Lemma strnlen_seen rd : forall k t p n t' tr,
  strnlen rd t p k = (n, t', tr) ->
  (forall x, p <= x < p + n -> exists u, rd u x <> nul) /\ (n < Z.of_nat k -> exists u, rd u (p + n) = nul).
Proof.
  induction k as [|k IH]; intros t p n t' tr H; cbn [strnlen] in H.
  - injection H as <- <- <-. split; intros; lia.
  - destruct (ascii_dec (rd t p) nul) as [e|e].
    + injection H as <- <- <-. split; [intros; lia|]. intros _. exists t. rewrite Z.add_0_r. exact e.
    + destruct (strnlen rd (S t) (p + 1) k) as [[n1 t1] tr1] eqn:E. injection H as <- <- <-.
      destruct (IH _ _ _ _ _ E) as [A B]. split.
      * intros x Hx. destruct (Z.eq_dec x p) as [->|]; [exists t; exact e|]. apply A. lia.
      * intros L. destruct B as [u U]; [lia|]. exists u. rewrite <- U. f_equal. lia.
Qed.
Lemma memcpy_out_seen rd : forall k t p bs t' tr,
  memcpy_out rd t p k = (bs, t', tr) ->
  length bs = k /\ forall i c, nth_error bs i = Some c -> exists u, rd u (p + Z.of_nat i) = c.
Proof.
  induction k as [|k IH]; intros t p bs t' tr H; cbn [memcpy_out] in H.
  - injection H as <- <- <-. split; [reflexivity|]. intros [|i] c X; discriminate.
  - destruct (memcpy_out rd (S t) (p + 1) k) as [[b1 t1] tr1] eqn:E. injection H as <- <- <-.
    destruct (IH _ _ _ _ _ E) as [A B]. split; [cbn; congruence|]. intros [|i] c X; cbn in X.
    + injection X as <-. exists t. rewrite Z.add_0_r. reflexivity.
    + destruct (B _ _ X) as [u U]. exists u. rewrite <- U. f_equal. lia.
Qed.
(** A byte of the view is a byte of the buffer; the view ends with a NUL there. *)
Lemma c_view_bytes : forall buf s, c_view buf = Some s ->
  (forall i c, nth_error s i = Some c -> c <> nul /\ nth_error buf i = Some c) /\ nth_error buf (length s) = Some nul.
Proof.
  induction buf as [|c buf IH]; intros s H; cbn in H; [discriminate|].
  destruct (ascii_dec c nul) as [->|N].
  - injection H as <-. split; [intros [|i] d X; discriminate|reflexivity].
  - destruct (c_view buf) as [s'|]; [|discriminate]. injection H as <-. destruct (IH _ eq_refl) as [A B].
    split; [|exact B]. intros [|i] d X; cbn in X; [injection X as <-; auto|]. apply A, X.
Qed.

Lemma strdup_out_read shm size hdr rd mok str r :
  mapping_ok shm size hdr -> is_word str ->
  strdup_out (library_heap shm size hdr) rd mok str = Ret r ->
  (dup_buf r = None -> no_cstring (shm + 2 * hdr) (shm + size) rd str) /\
  (forall buf, dup_buf r = Some buf -> exists s, c_view buf = Some s /\ cstring_read (shm + 2 * hdr) (shm + size) rd str s).
Proof.
  intros M Hs. unfold strdup_out.
  destruct (contains (library_heap shm size hdr) str 1) eqn:C.
  2:{ intros H. injection H as <-. cbn [dup_buf]. split; [|discriminate]. intros _. unfold no_cstring.
      destruct (Z_lt_dec str (shm + 2 * hdr)); [auto|]. destruct (Z_le_dec (shm + size) str); [auto|]. exfalso.
      enough (contains (library_heap shm size hdr) str 1 = true) by congruence.
      apply contains_iff; [exact M|exact Hs|unfold is_word, W; lia|lia]. }
  apply contains_iff in C; [|exact M|exact Hs|unfold is_word, W; lia].
  rewrite library_heap_eq by exact M. cbn [h_top]. unfold mapping_ok in M.
  destruct (strnlen rd 0 str (Z.to_nat (shm + size - str))) as [[len t] tr] eqn:E.
  pose proof (strnlen_bound _ _ _ _ _ _ _ E) as [B1 B2]. pose proof (strnlen_seen _ _ _ _ _ _ _ E) as [S1 S2].
  destruct (len =? shm + size - str) eqn:Q.
  - apply Z.eqb_eq in Q. intros H. injection H as <-. cbn [dup_buf]. split; [|discriminate].
    intros _. right. right. intros x Hx. apply S1. lia.
  - destruct mok; [|discriminate]. apply Z.eqb_neq in Q.
    destruct (memcpy_out rd t str (Z.to_nat len)) as [[bs t2] tr2] eqn:E2.
    destruct (memcpy_out_seen _ _ _ _ _ _ _ E2) as [L D].
    intros H. injection H as <-. cbn [dup_buf]. split; [discriminate|].
    intros buf HH. injection HH as <-. destruct (c_view_terminated bs) as [s V]. exists s. split; [exact V|].
    destruct (c_view_bytes _ _ V) as [V1 V2].
    assert (Ls : (length s < length (bs ++ [nul]))%nat) by (apply nth_error_Some; congruence).
    rewrite app_length in Ls. cbn [length] in Ls.
    unfold cstring_read. split; [lia|]. split; [lia|]. split.
    + intros i c X. destruct (V1 _ _ X) as [N Y]. split; [exact N|].
      destruct (Nat.lt_ge_cases i (length bs)) as [I|I]; [rewrite nth_error_app1 in Y by exact I; apply D, Y|].
      exfalso. assert (nth_error s i <> None) as Z by congruence. apply nth_error_Some in Z. lia.
    + destruct (Nat.lt_ge_cases (length s) (length bs)) as [I|I]; [rewrite nth_error_app1 in V2 by exact I; apply D, V2|].
      replace (Z.of_nat (length s)) with len by lia. apply S2. lia.
Qed.

Lemma strdup_out_total shm size hdr rd str :
  exists r, strdup_out (library_heap shm size hdr) rd true str = Ret r.
Proof.
  unfold strdup_out. destruct (contains _ str 1); [|eauto].
  destruct (strnlen _ _ _ _) as [[len t] tr].
  destruct (_ =? _); [eauto|].
  destruct (memcpy_out _ _ _ _) as [[? ?] ?]. eauto.
Qed.

Lemma strdup_out_stable_some shm size hdr m str buf tr :
  mapping_ok shm size hdr -> is_word str ->
  strdup_out (library_heap shm size hdr) (stable m) true str
    = Ret (DupResult (Some buf) tr) ->
  exists s, buf = s ++ [nul] /\ cstring_at m str s
            /\ str + Z.of_nat (length s) < shm + size.
Proof.
  intros M Hs. unfold strdup_out.
  destruct (contains (library_heap shm size hdr) str 1) eqn:C; [|discriminate].
  apply contains_iff in C; [|exact M|exact Hs|unfold is_word, W; lia].
  rewrite library_heap_eq by exact M. cbn [h_top]. unfold mapping_ok in M.
  destruct (strnlen _ 0 str (Z.to_nat (shm + size - str))) as [[len t] tr1] eqn:E.
  pose proof (strnlen_bound _ _ _ _ _ _ _ E) as [B1 B2].
  destruct (len =? shm + size - str) eqn:Q; [discriminate|].
  apply Z.eqb_neq in Q.
  destruct (memcpy_out (stable m) t str (Z.to_nat len)) as [[bs t2] tr2] eqn:E2.
  intros H. injection H as <- <-.
  pose proof (memcpy_stable _ _ _ _ _ _ _ E2) as ->.
  exists (mem_slice m str (Z.to_nat len)). split; [reflexivity|]. split.
  - apply (strnlen_stable_inv _ _ _ _ _ _ _ E). lia.
  - rewrite mem_slice_length. lia.
Qed.

Lemma strdup_out_stable_none shm size hdr m str tr :
  mapping_ok shm size hdr -> is_word str ->
  strdup_out (library_heap shm size hdr) (stable m) true str
    = Ret (DupResult None tr) ->
  str < shm + 2 * hdr \/ shm + size <= str \/
  forall s, cstring_at m str s -> shm + size <= str + Z.of_nat (length s).
Proof.
  intros M Hs. unfold strdup_out.
  destruct (contains (library_heap shm size hdr) str 1) eqn:C.
  2:{ intros _. destruct (Z_lt_le_dec str (shm + 2 * hdr)); [tauto|].
      destruct (Z_lt_le_dec str (shm + size)); [|tauto].
      enough (contains (library_heap shm size hdr) str 1 = true) by congruence.
      apply contains_iff; auto; [unfold is_word, W; lia|lia]. }
  apply contains_iff in C; [|exact M|exact Hs|unfold is_word, W; lia].
  rewrite library_heap_eq by exact M. cbn [h_top]. unfold mapping_ok in M.
  destruct (strnlen _ 0 str (Z.to_nat (shm + size - str))) as [[len t] tr1] eqn:E.
  destruct (len =? shm + size - str) eqn:Q.
  2:{ destruct (memcpy_out _ _ _ _) as [[? ?] ?]. discriminate. }
  apply Z.eqb_eq in Q. intros _. right; right. intros s Hc.
  destruct (Z_lt_le_dec (str + Z.of_nat (length s)) (shm + size)) as [L|L]; [|lia].
  exfalso.
  destruct (strnlen_stable_hit m (Z.to_nat (shm + size - str)) 0 str s Hc ltac:(lia))
    as (t' & tr' & E').
  rewrite E' in E. injection E as <- <- <-. lia.
Qed.

(** ** allocation *)

Lemma alloc_request_exact b c :
  is_word b -> is_word c ->
  (alloc_request b c = Some (b * c) /\ b * c < W) \/
  (alloc_request b c = None /\ W <= b * c).
Proof.
  intros Hb Hc. unfold alloc_request, umul, is_word in *.
  destruct (W <=? b * c) eqn:E.
  - right. split; [reflexivity|lia].
  - left. apply Z.leb_gt in E. rewrite wrap_small; [auto|]. unfold is_word.
    split; [|exact E]. apply Z.mul_nonneg_nonneg; lia.
Qed.

Lemma bytes_from_addr : forall bs p x b,
  In (x, b) (bytes_from p bs) -> p <= x < p + Z.of_nat (length bs).
Proof.
  induction bs as [|c r IH]; intros p x b H; [destruct H|].
  cbn in H. destruct H as [H|H].
  - injection H as <- <-. cbn [length]. lia.
  - apply IH in H. cbn [length]. lia.
Qed.

Lemma last_store_bytes_from : forall bs p i c,
  nth_error bs i = Some c -> last_store (bytes_from p bs) (p + Z.of_nat i) = Some c.
Proof.
  assert (N : forall bs p x, x < p -> last_store (bytes_from p bs) x = None).
  { induction bs as [|c r IH]; intros p x H; cbn; [reflexivity|].
    rewrite IH by lia. destruct (p =? x) eqn:E; [lia|reflexivity]. }
  induction bs as [|c r IH]; intros p i d H; [destruct i; discriminate|].
  destruct i as [|i]; cbn in H.
  - injection H as <-. cbn. rewrite N by lia.
    replace (p + 0) with p by lia. rewrite Z.eqb_refl. reflexivity.
  - cbn. replace (p + Z.pos (Pos.of_succ_nat i)) with (p + 1 + Z.of_nat i) by lia.
    rewrite (IH _ _ _ H). reflexivity.
Qed.

Lemma last_store_app a b x :
  last_store (a ++ b) x = match last_store b x with Some c => Some c | None => last_store a x end.
Proof.
  induction a as [|[y c] r IH]; cbn.
  - destruct (last_store b x); reflexivity.
  - rewrite IH. destruct (last_store b x); reflexivity.
Qed.

Lemma last_store_in st x c : last_store st x = Some c -> In (x, c) st.
Proof.
  induction st as [|[y d] r IH]; cbn; [discriminate|].
  destruct (last_store r x) as [e|].
  - intros H. right. apply IH. exact H.
  - destruct (y =? x) eqn:E; [|discriminate]. intros H. injection H as <-.
    apply Z.eqb_eq in E. subst. left; reflexivity.
Qed.

Lemma alloc_array_facts al ts c pl :
  is_word ts -> is_word c ->
  alloc_array al ts c = Some pl ->
  pl_requested pl = ts * c /\ ts * c < W /\ pl_addr pl = al (ts * c) /\ pl_addr pl <> 0 /\
  (forall x b, In (x, b) (pl_stored pl) ->
               pl_addr pl <= x < pl_addr pl + ts * c /\ b = nul) /\
  (forall x, pl_addr pl <= x < pl_addr pl + ts * c -> last_store (pl_stored pl) x = Some nul).
Proof.
  intros Hb Hc. unfold alloc_array.
  destruct (alloc_request_exact ts c Hb Hc) as [[E L]|[E L]]; rewrite E; [|discriminate].
  destruct (al (ts * c) =? 0) eqn:Z0; [discriminate|].
  intros H. injection H as <-. cbn [pl_requested pl_addr pl_stored].
  apply Z.eqb_neq in Z0. unfold is_word in *.
  assert (N : 0 <= ts * c) by (apply Z.mul_nonneg_nonneg; lia).
  repeat split; auto.
  - apply bytes_from_addr in H. rewrite repeat_length in H. lia.
  - apply bytes_from_addr in H. rewrite repeat_length in H. lia.
  - clear -H. revert H. generalize (al (ts * c)). induction (Z.to_nat (c * ts)); cbn; intros p H;
      [tauto|]. destruct H as [H|H]; [congruence|eauto].
  - intros x Hx.
    replace x with (al (ts * c) + Z.of_nat (Z.to_nat (x - al (ts * c)))) by lia.
    apply last_store_bytes_from. apply nth_error_repeat. lia.
Qed.

Lemma strdup_in_facts al s pl :
  Z.of_nat (length s) < W ->
  strdup_in al s = Some pl ->
  pl_requested pl = Z.of_nat (length s) /\
  (forall i c, nth_error s i = Some c ->
               last_store (pl_stored pl) (pl_addr pl + Z.of_nat i) = Some c) /\
  (forall x b, In (x, b) (pl_stored pl) ->
               pl_addr pl <= x < pl_addr pl + Z.of_nat (length s)).
Proof.
  intros L. unfold strdup_in.
  destruct (alloc_array al 1 (Z.of_nat (length s))) as [p0|] eqn:E; [|discriminate].
  intros H. injection H as <-. cbn [pl_requested pl_addr pl_stored].
  apply alloc_array_facts in E; [|unfold is_word, W; lia|unfold is_word; lia].
  destruct E as (E1 & E2 & E3 & E4 & E5 & E6).
  split; [lia|]. split.
  - intros i c Hi. rewrite last_store_app.
    rewrite (last_store_bytes_from _ _ _ _ Hi). reflexivity.
  - intros x b Hx. apply in_app_iff in Hx as [Hx|Hx].
    + apply E5 in Hx. lia.
    + apply bytes_from_addr in Hx. exact Hx.
Qed.

(** ** sandbox size *)

Lemma next_pow2_bits_spec x :
  1 <= x < W -> let b := next_pow2_bits x in 0 <= b <= 64 /\ x <= 2 ^ b /\ (1 < x -> 2 ^ b < 2 * x).
Proof.
  intros H. unfold next_pow2_bits. rewrite wrap_small by (unfold is_word; lia).
  destruct (x - 1 =? 0) eqn:E.
  - cbn. apply Z.eqb_eq in E. lia.
  - apply Z.eqb_neq in E. cbn zeta.
    pose proof (Z.log2_spec (x - 1) ltac:(lia)) as [A B].
    pose proof (Z.log2_nonneg (x - 1)).
    rewrite Z.pow_add_r by lia. unfold Z.succ in B. rewrite Z.pow_add_r in B by lia.
    split; [|split; lia].
    split; [lia|].
    enough (Z.log2 (x - 1) < 64) by lia. apply Z.log2_lt_pow2; [lia|]. unfold W in H. lia.
Qed.

Lemma library_map_size_ok size :
  1 <= size <= 2 ^ 33 ->
  exists k n, library_map_size size = Ret n /\ 0 <= k /\ n = 2 ^ k /\
    size * 2 ^ 30 <= n /\ (forall j, 0 <= j -> size * 2 ^ 30 <= 2 ^ j -> n <= 2 ^ j).
Proof.
  intros H. unfold library_map_size.
  assert (E : Z.shiftl size 30 = size * 2 ^ 30) by (apply Z.shiftl_mul_pow2; lia).
  rewrite E. assert (Hw : is_word (size * 2 ^ 30)) by (unfold is_word, W; lia).
  rewrite wrap_small by exact Hw.
  destruct (next_pow2_bits_spec (size * 2 ^ 30)) as (A & B & C).
  { unfold is_word in Hw. lia. }
  specialize (C ltac:(lia)).
  set (b := next_pow2_bits (size * 2 ^ 30)) in *.
  assert (b < 64).
  { destruct (Z_lt_le_dec b 64); [lia|]. assert (b = 64) by lia.
    assert (Hb : size * 2 ^ 30 <= 2 ^ 63) by lia.
    destruct (Z.eq_dec (size * 2 ^ 30) (2 ^ 63)) as [Q|Q].
    - exfalso. unfold b in H0. rewrite Q in H0. vm_compute in H0. discriminate.
    - rewrite H0 in C. lia. }
  assert (b <? 64 = true) as -> by lia. exists b, (2 ^ b).
  split; [reflexivity|]. split; [lia|]. split; [reflexivity|]. split; [lia|].
  intros j Hj Le. apply Z.pow_le_mono_r; [lia|].
  destruct (Z_lt_le_dec j b) as [L|L]; [|exact L].
  assert (2 ^ j <= 2 ^ (b - 1)) by (apply Z.pow_le_mono_r; lia).
  assert (2 ^ b = 2 * 2 ^ (b - 1)) by (rewrite <- Z.pow_succ_r by lia; f_equal; lia). lia.
Qed.
