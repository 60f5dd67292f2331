(** Lemmas about the child's callback marshalling. *)
From Coq Require Import String Ascii List ZArith Lia Bool.
From Verif Require Import Base PathModel PathSpec PathProof FileTreeModel RegionModel RegionSpec RegionProof
  DispatchModel DispatchProps HostCallsModel HostCallsProof ChildCallsModel ChildCallsSpec.
Import ListNotations.
Open Scope Z_scope.

(** ** Bytes *)

Lemma le_bytes_length n : forall v, List.length (le_bytes n v) = n.
Proof. induction n; intros v; cbn [le_bytes List.length]; auto. Qed.

Lemma le_value_bytes n : forall v, le_value (le_bytes n v) = v mod 256 ^ Z.of_nat n.
Proof.
  induction n as [|n IH]; intros v; cbn [le_bytes le_value].
  - rewrite Z.mod_1_r. reflexivity.
  - rewrite IH. rewrite N_ascii_embedding.
    2:{ pose proof (Z.mod_pos_bound v 256). lia. }
    rewrite Z2N.id by (pose proof (Z.mod_pos_bound v 256); lia).
    rewrite Nat2Z.inj_succ, Z.pow_succ_r by lia.
    rewrite Z.rem_mul_r by (try lia; apply Z.pow_pos_nonneg; lia). reflexivity.
Qed.

Lemma encode_cons n v fs : encode ((n, v) :: fs) = le_bytes n v ++ encode fs.
Proof. reflexivity. Qed.

Lemma encode_length fs : List.length (encode fs) = list_sum (map fst fs).
Proof.
  induction fs as [|[n v] r IH]; [reflexivity|]. rewrite encode_cons, app_length, IH, le_bytes_length. reflexivity.
Qed.

Lemma decode_encode fs :
  decode (map fst fs) (encode fs) = Some (map (fun '(n, v) => v mod 256 ^ Z.of_nat n) fs).
Proof.
  induction fs as [|[n v] r IH]; [reflexivity|].
  rewrite encode_cons. cbn [map fst decode]. rewrite app_length, le_bytes_length.
  replace (n + List.length (encode r) <? n)%nat with false by (symmetry; apply Nat.ltb_ge; lia).
  rewrite skipn_app, skipn_all2 by (rewrite le_bytes_length; lia). rewrite le_bytes_length, Nat.sub_diag.
  cbn [skipn app]. rewrite IH. rewrite firstn_app, le_bytes_length, Nat.sub_diag, firstn_all2
    by (rewrite le_bytes_length; lia). cbn [firstn]. rewrite app_nil_r, le_value_bytes. reflexivity.
Qed.

Lemma int_of_eq w : int_of w = to_int32 w.
Proof.
  unfold int_of, to_int32. pose proof (Z.mod_pos_bound w (2 ^ 32) ltac:(lia)) as B.
  destruct (Z.ltb_spec (w mod 2 ^ 32) (2 ^ 31)) as [L|L].
  - rewrite <- (Z.mod_unique_pos (w + 2 ^ 31) (2 ^ 32) (w / 2 ^ 32) (w mod 2 ^ 32 + 2 ^ 31)); [lia|lia|].
    pose proof (Z.div_mod w (2 ^ 32) ltac:(lia)). lia.
  - rewrite <- (Z.mod_unique_pos (w + 2 ^ 31) (2 ^ 32) (w / 2 ^ 32 + 1) (w mod 2 ^ 32 - 2 ^ 31)); [lia|lia|].
    pose proof (Z.div_mod w (2 ^ 32) ltac:(lia)). lia.
Qed.
Lemma int_of_wrap w : to_int32 (wrap w) = int_of w.
Proof.
  rewrite int_of_eq. unfold to_int32, wrap, W. replace ((w mod 2 ^ 64) mod 2 ^ 32) with (w mod 2 ^ 32); [reflexivity|].
  change (2 ^ 64) with (2 ^ 32 * 2 ^ 32). rewrite Z.rem_mul_r by lia.
  rewrite Z.mul_comm, Z.mod_add, Z.mod_mod by lia. reflexivity.
Qed.
Lemma apply_stores_after ss : forall m, apply_stores m ss = after_stores m ss.
Proof. unfold apply_stores. induction ss as [|[a b] r IH]; intros m; [reflexivity|]. apply IH. Qed.
Lemma argument_reg f i : argument f i = reg f i.
Proof. reflexivity. Qed.
Lemma uint_eq w : w mod 2 ^ 32 = to_uint32 w.
Proof. reflexivity. Qed.

Lemma to_int32_mod v : - 2 ^ 31 <= v < 2 ^ 31 -> to_int32 (v mod 2 ^ 32) = v.
Proof.
  intros H. unfold to_int32. rewrite Z.mod_mod by lia.
  destruct (Z.lt_ge_cases v 0).
  - replace (v mod 2 ^ 32) with (v + 2 ^ 32).
    2:{ rewrite <- (Z.mod_small (v + 2 ^ 32) (2 ^ 32)) by lia.
        rewrite <- (Z.mod_add v 1 (2 ^ 32)) by lia. f_equal. }
    destruct (Z.ltb_spec (v + 2 ^ 32) (2 ^ 31)); lia.
  - rewrite Z.mod_small by lia. destruct (Z.ltb_spec v (2 ^ 31)); lia.
Qed.

Lemma to_int32_wrap v : - 2 ^ 31 <= v < 2 ^ 31 -> to_int32 (wrap v) = v.
Proof.
  intros H. rewrite <- (to_int32_mod v H) at 2. unfold to_int32, wrap, W.
  rewrite Z.mod_mod by lia.
  replace ((v mod 2 ^ 64) mod 2 ^ 32) with (v mod 2 ^ 32); [reflexivity|].
  change (2 ^ 64) with (2 ^ 32 * 2 ^ 32). rewrite Z.rem_mul_r by lia.
  rewrite (Z.mul_comm (2 ^ 32)), Z.mod_add by lia. rewrite Z.mod_mod by lia. reflexivity.
Qed.

Lemma to_int32_id v : - 2 ^ 31 <= v < 2 ^ 31 -> to_int32 v = v.
Proof.
  intros H. unfold to_int32. pose proof (to_int32_mod v H) as E. unfold to_int32 in E.
  rewrite Z.mod_mod in E by lia. exact E.
Qed.

(** ** Memory *)

Lemma nth_error_ext {A} : forall l l' : list A, (forall i, nth_error l i = nth_error l' i) -> l = l'.
Proof.
  induction l as [|a l IH]; intros [|b l'] H; auto.
  - specialize (H 0%nat). discriminate.
  - specialize (H 0%nat). discriminate.
  - f_equal; [specialize (H 0%nat); cbn in H; congruence|]. apply IH. intros i. exact (H (S i)).
Qed.

Lemma read_bytes_length m p n : List.length (read_bytes m p n) = n.
Proof. unfold read_bytes. rewrite map_length, seq_length. reflexivity. Qed.

Lemma read_bytes_ext m m' p n :
  (forall x, p <= x < p + Z.of_nat n -> m x = m' x) -> read_bytes m p n = read_bytes m' p n.
Proof. intros H. apply map_ext_in. intros i Hi. apply in_seq in Hi. apply H. lia. Qed.

Lemma read_bytes_at m m' p n x :
  read_bytes m p n = read_bytes m' p n -> p <= x < p + Z.of_nat n -> m x = m' x.
Proof.
  intros E Hx. unfold read_bytes in E.
  assert (A : nth_error (map (fun i => m (p + Z.of_nat i)) (seq 0 n)) (Z.to_nat (x - p))
            = nth_error (map (fun i => m' (p + Z.of_nat i)) (seq 0 n)) (Z.to_nat (x - p))) by congruence.
  rewrite !nth_error_map in A.
  assert (S : nth_error (seq 0 n) (Z.to_nat (x - p)) = Some (Z.to_nat (x - p))).
  { rewrite nth_error_nth' with (d := 0%nat) by (rewrite seq_length; lia). rewrite seq_nth by lia. reflexivity. }
  rewrite S in A. cbn in A. injection A as A.
  replace (p + Z.of_nat (Z.to_nat (x - p))) with x in A by lia. exact A.
Qed.

Lemma read_bytes_nth m p n i : (i < n)%nat -> nth_error (read_bytes m p n) i = Some (m (p + Z.of_nat i)).
Proof.
  intros H. unfold read_bytes. rewrite nth_error_map.
  rewrite nth_error_nth' with (d := 0%nat) by (rewrite seq_length; lia). rewrite seq_nth by lia. reflexivity.
Qed.

Lemma read_bytes_S m p n : read_bytes m p (S n) = m p :: read_bytes m (p + 1) n.
Proof.
  unfold read_bytes. cbn [seq map]. rewrite Z.add_0_r. f_equal. rewrite <- seq_shift, map_map.
  apply map_ext. intros i. f_equal. lia.
Qed.
Lemma read_bytes_split m p n k :
  firstn n (read_bytes m p (n + k)) = read_bytes m p n /\ skipn n (read_bytes m p (n + k)) = read_bytes m (p + Z.of_nat n) k.
Proof.
  revert p. induction n as [|n IH]; intros p; [cbn [Nat.add firstn skipn Z.of_nat]; rewrite Z.add_0_r; auto|].
  cbn [Nat.add]. rewrite !read_bytes_S. cbn [firstn skipn]. destruct (IH (p + 1)) as [E1 E2]. rewrite E1, E2.
  split; [reflexivity|]. f_equal. lia.
Qed.

Lemma byte_value c : Z.of_N (N_of_ascii c) = Z.of_nat (nat_of_ascii c).
Proof. unfold nat_of_ascii. rewrite N_nat_Z. reflexivity. Qed.
Lemma byte_range c : 0 <= Z.of_N (N_of_ascii c) < 256.
Proof. pose proof (N_ascii_bounded c). lia. Qed.

Lemma number_of_bytes m n : forall q v, le_value (read_bytes m q n) = v <-> number_at m q (Z.of_nat n) v.
Proof.
  induction n as [|n IH]; intros q v.
  - cbn [read_bytes seq map le_value]. unfold number_at. cbn [Z.of_nat]. rewrite Z.pow_0_r. 
    split.
    + intros <-.
      split; [lia|intros i Hi; lia].
    + intros [R _]; lia.
  - rewrite read_bytes_S. cbn [le_value]. set (c := m q). pose proof (byte_range c) as B.
    split.
    + intros <-. destruct (proj1 (IH (q + 1) _) eq_refl) as [R G]. set (x := le_value _) in *. unfold number_at.
      rewrite Nat2Z.inj_succ, Z.pow_succ_r by lia. split; [lia|]. intros i Hi. rewrite <- byte_value.
      destruct (Z.eq_dec i 0) as [->|N].
      * rewrite Z.add_0_r, Z.pow_0_r, Z.div_1_r. rewrite Z.mul_comm, Z.mod_add, Z.mod_small by lia. reflexivity.
      * replace (q + i) with (q + 1 + (i - 1)) by lia. rewrite byte_value, G by lia.
        replace i with (Z.succ (i - 1)) at 2 by lia. rewrite Z.pow_succ_r, <- Z.div_div by (try apply Z.pow_pos_nonneg; lia).
        replace (Z.of_N (N_of_ascii c) + 256 * x) with (Z.of_N (N_of_ascii c) + x * 256) by lia. rewrite Z.div_add, (Z.div_small (Z.of_N (N_of_ascii c))), Z.add_0_l by lia. reflexivity.
    + intros [R G]. rewrite Nat2Z.inj_succ, Z.pow_succ_r in R by lia.
      assert (E : le_value (read_bytes m (q + 1) n) = v / 256).
      { apply IH. split; [split; [apply Z.div_pos; lia|apply Z.div_lt_upper_bound; lia]|].
        intros i Hi. replace (q + 1 + i) with (q + (i + 1)) by lia. rewrite G by lia.
        replace (i + 1) with (Z.succ i) by lia. rewrite Z.pow_succ_r, Z.div_div by (try apply Z.pow_pos_nonneg; lia). reflexivity. }
      rewrite E. pose proof (G 0 ltac:(lia)) as G0. rewrite Z.add_0_r, Z.pow_0_r, Z.div_1_r in G0. fold c in G0.
      rewrite byte_value, G0. pose proof (Z.div_mod v 256 ltac:(lia)). lia.
Qed.

Lemma numbers_of_bytes m : forall ws q vs,
  decode ws (read_bytes m q (list_sum ws)) = Some vs <-> length vs = length ws /\ numbers_at m q (combine (map Z.of_nat ws) vs).
Proof.
  induction ws as [|w ws IH]; intros q vs.
  - cbn. split; [intros E; injection E as <-; auto|]. intros [L _]. destruct vs; [reflexivity|discriminate].
  - change (list_sum (w :: ws)) with (w + list_sum ws)%nat. cbn [decode]. rewrite read_bytes_length.
    replace (w + list_sum ws <? w)%nat with false by (symmetry; apply Nat.ltb_ge; lia).
    destruct (read_bytes_split m q w (list_sum ws)) as [-> ->]. split.
    + destruct (decode ws _) as [vs'|] eqn:D; [|discriminate]. intros E; injection E as <-. apply IH in D as [L D].
      cbn. split; [lia|]. split; [apply number_of_bytes; reflexivity|exact D].
    + intros [L D]. destruct vs as [|v vs]; [discriminate|]. cbn in L, D. destruct D as [D1 D2].
      injection L as L. rewrite (proj2 (IH _ vs) (conj L D2)). apply number_of_bytes in D1. rewrite D1. reflexivity.
Qed.
Ltac bytes_of D ws := match type of D with
  | numbers_at ?m ?q ?l => let vs := eval cbn [map snd] in (map snd l) in
      apply (fun X => proj2 (numbers_of_bytes m ws q vs) (conj eq_refl X)) in D; cbn [list_sum fold_right Nat.add] in D
  end.


Lemma write_bytes_in m p bs i b : nth_error bs i = Some b -> write_bytes m p bs (p + Z.of_nat i) = b.
Proof.
  intros H. assert (L : (i < List.length bs)%nat) by (apply nth_error_Some; congruence).
  unfold write_bytes. replace (p <=? p + Z.of_nat i) with true by lia.
  replace (p + Z.of_nat i <? p + Z.of_nat (List.length bs)) with true by lia. cbn [andb].
  replace (Z.to_nat (p + Z.of_nat i - p)) with i by lia. apply nth_error_nth. exact H.
Qed.

Lemma write_bytes_out m p bs x : x < p \/ p + Z.of_nat (List.length bs) <= x -> write_bytes m p bs x = m x.
Proof.
  intros H. unfold write_bytes. destruct (Z.leb_spec p x); cbn [andb]; [|reflexivity].
  destruct (Z.ltb_spec x (p + Z.of_nat (List.length bs))); [lia|reflexivity].
Qed.

Lemma read_write_same m p bs : read_bytes (write_bytes m p bs) p (List.length bs) = bs.
Proof.
  apply nth_error_ext. intros i. destruct (Nat.lt_ge_cases i (List.length bs)) as [L|L].
  - rewrite read_bytes_nth by exact L.
    destruct (nth_error bs i) as [b|] eqn:E; [|apply nth_error_None in E; lia].
    f_equal. apply write_bytes_in. exact E.
  - rewrite (proj2 (nth_error_None bs i)) by lia. apply nth_error_None. rewrite read_bytes_length. lia.
Qed.

Lemma read_write_other m p bs q n :
  disjoint (p, Z.of_nat (List.length bs)) (q, Z.of_nat n) ->
  read_bytes (write_bytes m p bs) q n = read_bytes m q n.
Proof.
  intros D. apply read_bytes_ext. intros x Hx. apply write_bytes_out. unfold disjoint in D. cbn in D. lia.
Qed.

Lemma read_bytes_prefix m m' p n k :
  read_bytes m p n = read_bytes m' p n -> (k <= n)%nat -> read_bytes m p k = read_bytes m' p k.
Proof. intros E L. apply read_bytes_ext. intros x Hx. eapply read_bytes_at; [exact E|lia]. Qed.

Lemma cstring_read m p s : cstring_at m p s <->
  read_bytes m p (S (List.length s)) = s ++ [nul] /\ ~ In nul s.
Proof.
  split.
  - intros [A B]. split.
    + apply nth_error_ext. intros i. destruct (Nat.lt_ge_cases i (S (List.length s))) as [L|L].
      * rewrite read_bytes_nth by exact L. destruct (Nat.eq_dec i (List.length s)) as [->|N].
        { rewrite nth_error_app2, Nat.sub_diag by lia. cbn. congruence. }
        { rewrite nth_error_app1 by lia. destruct (nth_error s i) as [c|] eqn:E.
          - f_equal. apply A. exact E.
          - apply nth_error_None in E. lia. }
      * rewrite (proj2 (nth_error_None _ i)), (proj2 (nth_error_None _ i)); [reflexivity| |].
        { rewrite app_length. cbn. lia. }
        { rewrite read_bytes_length. lia. }
    + intros H. apply In_nth_error in H as [i H]. destruct (A i nul H). congruence.
  - intros [A B]. split.
    + intros i c H. assert (L : (i < List.length s)%nat) by (apply nth_error_Some; congruence).
      split.
      * assert (E : nth_error (read_bytes m p (S (List.length s))) i = nth_error (s ++ [nul]) i) by congruence.
        rewrite read_bytes_nth in E by lia. rewrite nth_error_app1 in E by lia. congruence.
      * intros ->. apply B. eapply nth_error_In; eauto.
    + assert (E : nth_error (read_bytes m p (S (List.length s))) (List.length s) = nth_error (s ++ [nul]) (List.length s)) by congruence.
      rewrite read_bytes_nth in E by lia. rewrite nth_error_app2, Nat.sub_diag in E by lia. cbn in E. congruence.
Qed.

Lemma strlen_cstring m : forall s p n, cstring_at m p s -> (List.length s < n)%nat ->
  strlen_from m p n = Some (List.length s).
Proof.
  induction s as [|c r IH]; intros p n [A B] L; (destruct n as [|n]; [cbn in L; lia|]); cbn [strlen_from List.length].
  - cbn in B. rewrite Z.add_0_r in B. destruct (ascii_dec (m p) nul); congruence.
  - destruct (A 0%nat c eq_refl) as [A1 A2]. cbn in A1. rewrite Z.add_0_r in A1. rewrite A1.
    destruct (ascii_dec c nul); [congruence|]. rewrite (IH (p + 1) n); [reflexivity| |cbn in L; lia].
    split.
    + intros i d H. destruct (A (S i) d H) as [H1 H2]. rewrite <- H1. split; [|congruence]. f_equal. lia.
    + rewrite <- B. f_equal. cbn [List.length]. lia.
Qed.

(** ** Marshalling *)

Section M.
Variables (room : nat) (shm size hdr : Z) (alloc : list (Z * Z) -> Z -> Z) (fuel : nat) (maxn : Z) (B : list (Z * Z)).
Hypothesis MO : mapping_ok shm size hdr.
Hypothesis TB : tidy shm size hdr B.
Hypothesis AS : malloc_serves room shm size hdr alloc B maxn.

Local Notation inside := (is_inside shm (shm + size)).
Local Notation G := (grown alloc maxn B).

Lemma grown_incl k bs : G k bs -> incl B bs.
Proof. induction 1; [apply incl_refl|]. intros b Hb. right. auto. Qed.

Lemma grown_tidy k bs : (k <= S room)%nat -> G k bs -> tidy shm size hdr bs.
Proof.
  intros L H. induction H as [|k bs n H IH Hn]; [exact TB|].
  destruct (IH ltac:(lia)) as [T1 T2]. destruct (AS k bs n ltac:(lia) H Hn) as [A1 A2].
  split.
  - intros p q [E|E]; [|auto]. injection E as <- <-. unfold object. unfold heap_block, mapping_ok in *.
    split; [lia|]. split; [lia|]. split; [lia|]. left. exact A1.
  - intros b c [<-|Hb] [<-|Hc]; auto.
    + right. specialize (A2 b Hb). unfold disjoint in *. cbn [fst snd] in *. lia.
Qed.

(** The blocks in use keep their contents. *)
Definition keeps (m m' : cmem) (bs : list (Z * Z)) : Prop :=
  forall p n, In (p, n) bs -> read_bytes m' p (Z.to_nat n) = read_bytes m p (Z.to_nat n).

Lemma keeps_refl m bs : keeps m m bs.
Proof. intros p n _. reflexivity. Qed.
Lemma keeps_trans m1 m2 m3 bs cs : incl bs cs -> keeps m1 m2 bs -> keeps m2 m3 cs -> keeps m1 m3 bs.
Proof. intros I H1 H2 p n Hp. rewrite (H2 p n (I _ Hp)). auto. Qed.

Lemma inside_object p n : object shm size hdr p n ->
  if inside p 1 then heap_block shm size hdr p n else p <> 0.
Proof.
  intros (A & Bn & C & D). unfold is_inside, mapping_ok, heap_block in *.
  assert (w : wrap (p + 1) = p + 1) by (apply wrap_small; unfold is_word; lia). rewrite w.
  destruct (Z.leb_spec shm p); cbn [andb]; [|lia].
  destruct (Z.ltb_spec (p + 1) (shm + size)); lia.
Qed.

(** One argument that is a pointer to an object of the program. *)
Definition carried (m m' : cmem) (bs : list (Z * Z)) (p n a : Z) : Prop :=
  heap_block shm size hdr a n /\ In (a, n) bs /\ (a = p \/ forall b, In b B -> disjoint (a, n) b) /\
  read_bytes m' a (Z.to_nat n) = read_bytes m p (Z.to_nat n).

Lemma copy_in k st n src : (k <= room)%nat -> G k (cs_blocks st) -> 0 < n <= maxn ->
  let a := alloc (cs_blocks st) n in
  a <> 0 /\
  let st' := CSt (write_bytes (cs_mem st) a (read_bytes (cs_mem st) src (Z.to_nat n))) ((a, n) :: cs_blocks st) in
  G (S k) (cs_blocks st') /\ keeps (cs_mem st) (cs_mem st') (cs_blocks st) /\
  heap_block shm size hdr a n /\
  (forall b, In b B -> disjoint (a, n) b) /\
  read_bytes (cs_mem st') a (Z.to_nat n) = read_bytes (cs_mem st) src (Z.to_nat n).
Proof.
  intros Lk HG Hn a. destruct (AS k _ n Lk HG Hn) as [A1 A2]. fold a in A1, A2.
  split; [unfold heap_block, mapping_ok in *; lia|]. cbv zeta. cbn [cs_mem cs_blocks].
  split; [constructor; auto|]. split; [|split; [exact A1|split]].
  - intros p q Hp. destruct (Z.lt_ge_cases q 0) as [N|N].
    + replace (Z.to_nat q) with 0%nat by lia. reflexivity.
    + apply read_write_other. rewrite read_bytes_length. rewrite !Z2Nat.id by lia. apply A2. exact Hp.
  - intros b Hb. apply A2. apply (grown_incl _ _ HG). exact Hb.
  - rewrite <- (read_bytes_length (cs_mem st) src (Z.to_nat n)) at 2. rewrite read_write_same. reflexivity.
Qed.

Lemma ptr_arg_ok k st p n n' : (k <= room)%nat -> G k (cs_blocks st) -> In (p, n') B -> 0 < n <= n' -> n <= maxn ->
  exists st' a c, ptr_arg shm (shm + size) alloc st p n = Ret (st', a, c) /\
    (exists k', (k' <= S k)%nat /\ G k' (cs_blocks st')) /\ incl (cs_blocks st) (cs_blocks st') /\
    keeps (cs_mem st) (cs_mem st') (cs_blocks st) /\
    heap_block shm size hdr a n /\ ((c = false /\ a = p) \/ (c = true /\ In (a, n) (cs_blocks st') /\ forall b, In b B -> disjoint (a, n) b)) /\
    read_bytes (cs_mem st') a (Z.to_nat n) = read_bytes (cs_mem st) p (Z.to_nat n).
Proof.
  intros Lk HG Hp Hn Hm. unfold ptr_arg. pose proof (inside_object _ _ (proj1 TB _ _ Hp)) as I.
  destruct (inside p 1).
  - exists st, p, false. split; [reflexivity|]. split; [exists k; split; [lia|auto]|].
    split; [apply incl_refl|]. split; [apply keeps_refl|].
    split; [unfold heap_block in *; lia|]. split; [left; auto|reflexivity].
  - replace (p =? 0) with false by lia. unfold malloc.
    destruct (copy_in k st n p Lk HG ltac:(lia)) as (N & C). cbv zeta in C.
    replace (alloc (cs_blocks st) n =? 0) with false by lia.
    destruct C as (C1 & C2 & C3 & C4 & C5). eexists _, _, true. split; [reflexivity|]. unfold fill. cbn [cs_mem cs_blocks] in *.
    split; [exists (S k); split; [lia|auto]|]. split; [intros b Hb; right; exact Hb|]. split; [exact C2|].
    split; [exact C3|]. split; [right; split; [auto|split; [left; auto|exact C4]]|exact C5].
Qed.

Lemma cstr_arg_ok k st p s : (k <= room)%nat -> G k (cs_blocks st) ->
  In (p, Z.of_nat (S (List.length s))) B -> cstring_at (cs_mem st) p s -> (List.length s < fuel)%nat ->
  Z.of_nat (S (List.length s)) <= maxn ->
  let n := Z.of_nat (S (List.length s)) in
  exists st' a, cstr_arg shm (shm + size) alloc fuel st p = Ret (st', a) /\
    (exists k', (k' <= S k)%nat /\ G k' (cs_blocks st')) /\ incl (cs_blocks st) (cs_blocks st') /\
    keeps (cs_mem st) (cs_mem st') (cs_blocks st) /\
    carried (cs_mem st) (cs_mem st') (cs_blocks st') p n a.
Proof.
  intros Lk HG Hp HS Hf Hm n. unfold cstr_arg. pose proof (inside_object _ _ (proj1 TB _ _ Hp)) as I.
  destruct (inside p 1).
  - exists st, p. split; [reflexivity|]. split; [exists k; split; [lia|auto]|].
    split; [apply incl_refl|]. split; [apply keeps_refl|].
    split; [exact I|]. split; [apply (grown_incl _ _ HG); exact Hp|]. split; [left; auto|reflexivity].
  - replace (p =? 0) with false by lia. rewrite (strlen_cstring _ _ _ _ HS Hf). unfold malloc.
    replace (Z.of_nat (List.length s) + 1) with n by (unfold n; lia).
    destruct (copy_in k st n p Lk HG ltac:(lia)) as (N & C). cbv zeta in C.
    replace (alloc (cs_blocks st) n =? 0) with false by lia.
    destruct C as (C1 & C2 & C3 & C4 & C5). eexists _, _. split; [reflexivity|]. unfold fill. cbn [cs_mem cs_blocks] in *.
    replace (Z.to_nat n) with (S (List.length s)) in * by lia.
    split; [exists (S k); split; [lia|auto]|]. split; [intros b Hb; right; exact Hb|]. split; [exact C2|].
    split; [exact C3|]. split; [left; auto|]. split; [right; exact C4|].
    replace (Z.to_nat n) with (S (List.length s)) by lia. exact C5.
Qed.

(** A well-formed argument, the object it denotes if any, and its width. *)
Inductive arg_ok (m : cmem) : carg -> option (Z * Z) -> nat -> Prop :=
| OK_int v : arg_ok m (CInt v) None 4
| OK_uint v : arg_ok m (CUInt v) None 4
| OK_word v : arg_ok m (CWord v) None 8
| OK_str p s : cstring_at m p s -> In (p, Z.of_nat (S (List.length s))) B -> (List.length s < fuel)%nat ->
    Z.of_nat (S (List.length s)) <= maxn -> arg_ok m (CStr p) (Some (p, Z.of_nat (S (List.length s)))) 8
| OK_ptr p n out : In (p, n) B -> n <= maxn -> arg_ok m (CPtr p n out) (Some (p, n)) 8.

Definition sent (m m' : cmem) (bs : list (Z * Z)) (a : carg) (o : option (Z * Z)) (f : field) : Prop :=
  match o with
  | None => match a with CInt v | CUInt v => f = (4%nat, v) | CWord v => f = (8%nat, v) | _ => False end
  | Some (p, n) => fst f = 8%nat /\ carried m m' bs p n (snd f)
  end.

Definition back_of (a : carg) (f : field) (bk : list (Z * Z * Z)) : Prop :=
  match a with
  | CPtr p n true => (bk = [] /\ snd f = p) \/
      (bk = [(p, snd f, n)] /\ forall b, In b B -> disjoint (snd f, n) b)
  | _ => bk = []
  end.

Inductive backs : list carg -> list field -> list (Z * Z * Z) -> Prop :=
| BK_nil : backs [] [] []
| BK_cons a l f fs b bk : back_of a f b -> backs l fs bk -> backs (a :: l) (f :: fs) (b ++ bk).

Lemma arg_ok_keep m m' a o w : keeps m m' B -> arg_ok m a o w -> arg_ok m' a o w.
Proof.
  intros K H. destruct H; constructor; auto.
  apply cstring_read. apply cstring_read in H. destruct H as [Q1 Q2]. split; [|exact Q2].
  specialize (K _ _ H0). replace (Z.to_nat (Z.of_nat (S (Datatypes.length s)))) with (S (List.length s)) in K by lia.
  congruence.
Qed.

Lemma carried_keep m0 m m' bs bs' p n a :
  keeps m m' bs -> incl bs bs' -> carried m0 m bs p n a -> carried m0 m' bs' p n a.
Proof.
  intros K I (A & C & D & E). split; [exact A|]. split; [apply I; exact C|]. split; [exact D|].
  rewrite (K _ _ C). exact E.
Qed.

Lemma sent_keep m0 m m' bs bs' a o f : keeps m m' bs -> incl bs bs' -> sent m0 m bs a o f -> sent m0 m' bs' a o f.
Proof.
  intros K I. unfold sent. destruct o as [[p n]|]; [|auto]. intros [H1 H2]. split; [exact H1|].
  eapply carried_keep; eauto.
Qed.

Lemma marshal_ok : forall args objs ws m0,
  Forall2 (fun a ow => arg_ok m0 a (fst ow) (snd ow)) args (combine objs ws) ->
  List.length objs = List.length ws ->
  forall k st, (k + List.length args <= room)%nat -> G k (cs_blocks st) -> keeps m0 (cs_mem st) B ->
  exists st' fs bk, marshal shm (shm + size) alloc fuel st args = Ret (st', fs, bk) /\
    (exists k', (k' <= k + List.length args)%nat /\ G k' (cs_blocks st')) /\
    incl (cs_blocks st) (cs_blocks st') /\ keeps (cs_mem st) (cs_mem st') (cs_blocks st) /\
    map fst fs = ws /\
    Forall2 (fun '(a, o) f => sent m0 (cs_mem st') (cs_blocks st') a o f) (combine args objs) fs /\
    backs args fs bk.
Proof.
  induction args as [|a l IH]; intros objs ws m0 HA LE k st Lk HG HK.
  - inversion HA as [E|]. destruct objs as [|o objs], ws as [|w ws]; try discriminate.
    exists st, [], []. cbn [marshal]. split; [reflexivity|]. split; [exists k; split; [cbn; lia|auto]|].
    split; [apply incl_refl|]. split; [apply keeps_refl|]. split; [reflexivity|]. split; constructor.
  - destruct objs as [|o objs], ws as [|w ws]; try (inversion HA; discriminate); try discriminate.
    cbn [combine] in HA. inversion HA as [|? ? ? ? H1 H2]; subst. cbn [fst snd] in H1. cbn [List.length] in Lk, LE.
    injection LE as LE.
    assert (PLAIN : forall v wd, (a = CInt v /\ wd = 4%nat \/ a = CUInt v /\ wd = 4%nat \/ a = CWord v /\ wd = 8%nat) ->
      o = None -> w = wd ->
      exists st' fs bk, obind (marshal shm (shm + size) alloc fuel st l)
         (fun '(st', fs, bk) => Ret (st', (wd, v) :: fs, bk)) = Ret (st', fs, bk) /\
      (exists k', (k' <= k + List.length (a :: l))%nat /\ G k' (cs_blocks st')) /\
      incl (cs_blocks st) (cs_blocks st') /\ keeps (cs_mem st) (cs_mem st') (cs_blocks st) /\
      map fst fs = w :: ws /\
      Forall2 (fun '(a, o) f => sent m0 (cs_mem st') (cs_blocks st') a o f) (combine (a :: l) (o :: objs)) fs /\
      backs (a :: l) fs bk).
    { intros v wd Ha -> ->.
      destruct (IH objs ws m0 H2 LE k st ltac:(lia) HG HK) as (st' & fs & bk & E & (k' & K1 & K2) & I & KP & MF & F & BK).
      exists st', ((wd, v) :: fs), bk. rewrite E. cbn [obind]. split; [reflexivity|].
      split; [exists k'; split; [cbn [List.length]; lia|auto]|]. split; [exact I|]. split; [exact KP|].
      split; [cbn [map fst]; congruence|]. split.
      - cbn [combine]. constructor; [|exact F]. cbn.
        destruct Ha as [[-> ->]|[[-> ->]|[-> ->]]]; reflexivity.
      - change bk with ([] ++ bk). constructor; [|exact BK]. destruct Ha as [[-> _]|[[-> _]|[-> _]]]; reflexivity. }
    inversion H1; subst; cbn [marshal].
    + apply PLAIN; auto.
    + apply PLAIN; auto 6.
    + apply PLAIN; auto 6.
    + clear PLAIN. assert (A1 := arg_ok_keep _ _ _ _ _ HK H1). inversion A1; subst.
      assert (X : s0 = s).
      { eapply cstring_unique; [eassumption|]. apply cstring_read. apply cstring_read in H. destruct H as [Q1 Q2].
        split; [|exact Q2]. specialize (HK _ _ H0).
        replace (Z.to_nat (Z.of_nat (S (Datatypes.length s)))) with (S (List.length s)) in HK by lia. congruence. }
      subst s0.
      destruct (cstr_arg_ok k st p s ltac:(lia) HG H0 ltac:(assumption) H3 ltac:(assumption))
        as (st1 & a1 & E1 & (k1 & K1 & G1) & I1 & KP1 & C1).
      rewrite E1. cbn [obind].
      assert (KB : keeps m0 (cs_mem st1) B).
      { eapply keeps_trans; [|exact HK|exact KP1]. eapply grown_incl; eauto. }
      destruct (IH objs ws m0 H2 LE k1 st1 ltac:(lia) G1 KB) as (st' & fs & bk & E & (k' & K1' & K2) & I & KP & MF & F & BK).
      rewrite E. cbn [obind]. eexists st', _, bk. split; [reflexivity|].
      split; [exists k'; split; [cbn [List.length]; lia|auto]|].
      split; [eapply incl_tran; eauto|]. split; [eapply keeps_trans; eauto|].
      split; [cbn [map fst]; congruence|]. split.
      * cbn [combine]. constructor; [|exact F]. cbn [sent fst snd]. split; [reflexivity|].
        apply (carried_keep m0 (cs_mem st1) _ (cs_blocks st1)); auto.
        destruct C1 as (C1 & C2 & C3 & C4). repeat split; auto; try apply C1. rewrite C4. apply HK. exact H0.
      * change bk with ([] ++ bk). constructor; [reflexivity|exact BK].
    + clear PLAIN.
      assert (Pn : 0 < n) by (destruct (proj1 TB _ _ H) as (_ & Q & _); exact Q).
      destruct (ptr_arg_ok k st p n n ltac:(lia) HG H ltac:(lia) H0)
        as (st1 & a1 & c & E1 & (k1 & K1 & G1) & I1 & KP1 & C1 & C2 & C3).
      rewrite E1. cbn [obind].
      assert (KB : keeps m0 (cs_mem st1) B).
      { eapply keeps_trans; [|exact HK|exact KP1]. eapply grown_incl; eauto. }
      destruct (IH objs ws m0 H2 LE k1 st1 ltac:(lia) G1 KB) as (st' & fs & bk & E & (k' & K1' & K2) & I & KP & MF & F & BK).
      rewrite E. cbn [obind]. eexists st', _, _. split; [reflexivity|].
      split; [exists k'; split; [cbn [List.length]; lia|auto]|].
      split; [eapply incl_tran; eauto|]. split; [eapply keeps_trans; eauto|].
      split; [cbn [map fst]; congruence|]. split.
      * cbn [combine]. constructor; [|exact F]. cbn [sent fst snd]. split; [reflexivity|].
        apply (carried_keep m0 (cs_mem st1) _ (cs_blocks st1)); auto.
        split; [exact C1|]. split; [|split].
        -- destruct C2 as [[_ ->]|(_ & C2 & _)]; [|exact C2]. apply (grown_incl _ _ G1). exact H.
        -- destruct C2 as [[_ ->]|(_ & _ & C2)]; auto.
        -- rewrite C3. apply HK. exact H.
      * destruct C2 as [[-> ->]|(-> & _ & C2)].
        -- rewrite andb_false_r. change bk with ([] ++ bk). constructor; [|exact BK]. destruct out; cbn; auto.
        -- rewrite andb_true_r. destruct out.
           ++ change ((p, a1, n) :: bk) with ([(p, a1, n)] ++ bk). constructor; [|exact BK]. cbn. right. split; auto.
           ++ change bk with ([] ++ bk). constructor; [reflexivity|exact BK].
Qed.

(** The whole request. *)
Lemma prepare_ok : forall args objs ws st sp,
  Forall2 (fun a ow => arg_ok (cs_mem st) a (fst ow) (snd ow)) args (combine objs ws) ->
  List.length objs = List.length ws -> (List.length args < room)%nat -> cs_blocks st = B ->
  In (sp, 32) B -> (0 < list_sum ws <= 32)%nat -> 32 <= maxn ->
  (forall p n, In (Some (p, n)) objs -> (p, n) <> (sp, 32)) ->
  exists st' q fs bk, prepare shm (shm + size) alloc fuel st sp args = Ret (st', q, Z.of_nat (list_sum ws), bk) /\
    heap_block shm size hdr q (Z.of_nat (list_sum ws)) /\
    (q = sp \/ forall b, In b B -> disjoint (q, Z.of_nat (list_sum ws)) b) /\
    map fst fs = ws /\
    decode ws (read_bytes (cs_mem st') q (list_sum ws)) = Some (map (fun '(n, v) => v mod 256 ^ Z.of_nat n) fs) /\
    incl B (cs_blocks st') /\
    (forall p n, In (p, n) B -> (p, n) <> (sp, 32) ->
       read_bytes (cs_mem st') p (Z.to_nat n) = read_bytes (cs_mem st) p (Z.to_nat n)) /\
    Forall2 (fun '(a, o) f => sent (cs_mem st) (cs_mem st') (cs_blocks st') a o f) (combine args objs) fs /\
    backs args fs bk.
Proof.
  intros args objs ws st sp HA LE Lk EB Hsp Hw Hmx Hne.
  assert (HG : G 0 (cs_blocks st)) by (rewrite EB; constructor).
  destruct (marshal_ok args objs ws (cs_mem st) HA LE 0 st ltac:(lia) HG (keeps_refl _ _))
    as (st1 & fs & bk & E & (k1 & K1 & G1) & I1 & KP1 & MF & F & BK).
  unfold prepare. rewrite E. cbn [obind]. rewrite encode_length, MF.
  set (n := Z.of_nat (list_sum ws)).
  set (st2 := CSt (write_bytes (cs_mem st1) sp (encode fs)) (cs_blocks st1)).
  assert (T1 := grown_tidy k1 _ ltac:(lia) G1).
  assert (KP2 : forall p z, In (p, z) (cs_blocks st1) -> (p, z) <> (sp, 32) ->
     read_bytes (cs_mem st2) p (Z.to_nat z) = read_bytes (cs_mem st1) p (Z.to_nat z)).
  { intros p z Hp N. unfold st2. cbn [cs_mem]. apply read_write_other.
    rewrite encode_length, MF.
    destruct (proj2 T1 (p, z) (sp, 32) Hp (grown_incl _ _ G1 _ Hsp)) as [X|X]; [congruence|].
    destruct (proj1 T1 _ _ Hp) as (_ & Pz & _). unfold disjoint in *. cbn [fst snd] in *. lia. }
  assert (R2 : read_bytes (cs_mem st2) sp (list_sum ws) = encode fs).
  { unfold st2. cbn [cs_mem]. rewrite <- MF, <- encode_length. apply read_write_same. }
  destruct (ptr_arg_ok k1 st2 sp n 32 ltac:(lia) G1 Hsp ltac:(lia) ltac:(lia))
    as (st3 & q & c & E3 & (k3 & K3 & G3) & I3 & KP3 & C1 & C2 & C3).
  rewrite E3. cbn [obind]. exists st3, q, fs, bk. split; [reflexivity|].
  split; [exact C1|].
  assert (Q : q = sp \/ forall b, In b B -> disjoint (q, n) b)
    by (destruct C2 as [[_ ->]|(_ & _ & C2)]; auto).
  split; [exact Q|]. split; [exact MF|].
  assert (RD : read_bytes (cs_mem st3) q (list_sum ws) = encode fs).
  { unfold n in C3. rewrite Nat2Z.id in C3. rewrite C3. exact R2. }
  split; [rewrite RD, <- MF; apply decode_encode|].
  assert (KP : forall p z, In (p, z) (cs_blocks st1) -> (p, z) <> (sp, 32) ->
     read_bytes (cs_mem st3) p (Z.to_nat z) = read_bytes (cs_mem st1) p (Z.to_nat z)).
  { intros p z Hp N. rewrite (KP3 p z Hp). apply KP2; auto. }
  split; [eapply grown_incl; eauto|].
  split; [intros p z Hp N; rewrite KP; [apply KP1; rewrite EB; exact Hp|apply I1; rewrite EB; exact Hp|exact N]|].
  split; [|exact BK].
  clear - F KP I3 Hne TB Hsp.
  assert (Hne' : forall a o, In (a, o) (combine args objs) -> forall p n, o = Some (p, n) -> (p, n) <> (sp, 32)).
  { intros a o H p z ->. apply Hne. eapply in_combine_r; eauto. }
  revert Hne'. generalize (combine args objs) as l, fs, F. induction 1 as [|[a o] f l' fs' HS HF IH]; intros N; [constructor|].
  constructor; [|apply IH; intros; eapply N; [right|]; eauto].
  unfold sent in *. destruct o as [[p z]|]; [|exact HS]. destruct HS as [H1 (A & C & D & EQ)].
  split; [exact H1|]. split; [exact A|]. split; [apply I3; exact C|]. split; [exact D|].
  rewrite KP; [exact EQ|exact C|].
  assert (X := N a _ (or_introl eq_refl) p z eq_refl).
  destruct D as [->|D]; [exact X|]. intros Y. specialize (D _ Hsp). rewrite Y in D.
  unfold disjoint in D. cbn in D. lia.
Qed.
End M.

(** ** Names of own descriptors *)

Lemma is_digit_in c : is_digit c = true <-> char_in [48; 49; 50; 51; 52; 53; 54; 55; 56; 57]%nat c.
Proof.
  unfold is_digit, char_in. generalize (nat_of_ascii c) as n. intros n. rewrite andb_true_iff, !Nat.leb_le. cbn [In].
  split; [|lia]. intros [A B]. destruct (Nat.eq_dec n 48), (Nat.eq_dec n 49), (Nat.eq_dec n 50), (Nat.eq_dec n 51),
    (Nat.eq_dec n 52), (Nat.eq_dec n 53), (Nat.eq_dec n 54), (Nat.eq_dec n 55), (Nat.eq_dec n 56); lia.
Qed.
Lemma is_space_in c : is_space c = true <-> char_in [32; 9; 10; 11; 12; 13]%nat c.
Proof.
  unfold is_space, char_in. generalize (nat_of_ascii c) as n. intros n.
  rewrite orb_true_iff, andb_true_iff, !Nat.leb_le, Nat.eqb_eq. cbn [In]. lia.
Qed.
Lemma scan_unsigned_some s : scan_unsigned s <> None <->
  exists d r, s = d :: r /\ char_in [48; 49; 50; 51; 52; 53; 54; 55; 56; 57]%nat d.
Proof.
  unfold scan_unsigned. destruct s as [|c s].
  - split; [congruence|]. intros (d & r & E & _). discriminate.
  - destruct (is_digit c) eqn:Dg.
    + split; [|discriminate]. intros _. exists c, s. split; [reflexivity|]. apply is_digit_in. exact Dg.
    + split; [congruence|]. intros (d & r & E & Hd). injection E as <- <-. apply is_digit_in in Hd. congruence.
Qed.
Lemma scan_int_some s : scan_int s <> None <-> reads_number s.
Proof.
  induction s as [|c s IH].
  - split; [cbn; congruence|]. intros (ws & sg & d & r & E & _). destruct ws, sg; discriminate.
  - cbn [scan_int]. destruct (is_space c) eqn:Sp.
    + rewrite IH. split.
      * intros (ws & sg & d & r & -> & Fw & X). exists (c :: ws), sg, d, r. split; [reflexivity|]. split; [|exact X].
        constructor; [apply is_space_in; exact Sp|exact Fw].
      * intros (ws & sg & d & r & E & Fw & Sg & Dd). apply is_space_in in Sp. destruct ws as [|w ws].
        -- exfalso. destruct Sg as [->|(x & -> & X)]; cbn [app] in E; injection E as <- _;
             unfold char_in in *; cbn [In] in *; lia.
        -- cbn [app] in E. injection E as _ ->. exists ws, sg, d, r. inversion Fw. auto.
    + assert (NS : ~ char_in [32; 9; 10; 11; 12; 13]%nat c) by (rewrite <- is_space_in, Sp; discriminate).
      assert (A : reads_number (c :: s) <-> (char_in [43; 45]%nat c /\ scan_unsigned s <> None) \/ scan_unsigned (c :: s) <> None).
      { rewrite !scan_unsigned_some. split.
        - intros (ws & sg & d & r & E & Fw & Sg & Dd). destruct ws as [|w ws].
          + destruct Sg as [->|(x & -> & X)]; cbn [app] in E; injection E as <- ->; [right; eauto|left; eauto].
          + exfalso. cbn [app] in E. injection E as <- _. inversion Fw. auto.
        - intros [(X & d & r & -> & Dd)|(d & r & E & Dd)].
          + exists [], [c], d, r. split; [reflexivity|]. split; [constructor|]. split; [right; eauto|exact Dd].
          + exists [], [], d, r. split; [exact E|]. split; [constructor|]. auto. }
      rewrite A. destruct (Nat.eqb_spec (nat_of_ascii c) 45) as [E|N1].
      * assert (X : scan_unsigned (c :: s) = None).
        { destruct (scan_unsigned (c :: s)) eqn:Q; [|reflexivity]. exfalso.
          assert (Y : scan_unsigned (c :: s) <> None) by congruence. apply scan_unsigned_some in Y.
          destruct Y as (d & r & Z0 & Dd). injection Z0 as <- _. unfold char_in in Dd. cbn [In] in Dd. lia. }
        rewrite X. unfold char_in. cbn [In]. destruct (scan_unsigned s); cbn; intuition (try congruence; try lia).
      * destruct (Nat.eqb_spec (nat_of_ascii c) 43) as [E|N2].
        -- assert (X : scan_unsigned (c :: s) = None).
           { destruct (scan_unsigned (c :: s)) eqn:Q; [|reflexivity]. exfalso.
             assert (Y : scan_unsigned (c :: s) <> None) by congruence. apply scan_unsigned_some in Y.
             destruct Y as (d & r & Z0 & Dd). injection Z0 as <- _. unfold char_in in Dd. cbn [In] in Dd. lia. }
           rewrite X. unfold char_in. cbn [In]. destruct (scan_unsigned s); intuition (try congruence; try lia).
        -- unfold char_in. cbn [In]. intuition (try congruence; try lia).
Qed.
Lemma strip_prefix_iff a b t : strip_prefix a b = Some t <-> b = a ++ t.
Proof.
  revert b. induction a as [|x a IH]; intros b; cbn; [split; congruence|]. destruct b as [|y b]; [split; discriminate|].
  destruct (ascii_dec x y) as [->|N].
  - rewrite IH. split; congruence.
  - split; [discriminate|]. intros E. injection E. congruence.
Qed.
Lemma own_descriptor_iff proc s : own_descriptor proc s <> None <-> own_name proc s.
Proof.
  unfold own_descriptor, own_name. destruct (strip_prefix proc s) as [t|] eqn:P.
  - apply strip_prefix_iff in P as ->. rewrite scan_int_some. split; [eauto|].
    intros (t' & E & R). apply app_inv_head in E as ->. exact R.
  - split; [congruence|]. intros (t & -> & _). rewrite (proj2 (strip_prefix_iff proc (proc ++ t) t) eq_refl) in P. discriminate.
Qed.
