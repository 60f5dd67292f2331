(** Proofs about BuddyModel.v. *)
From Coq Require Import List ZArith Lia Bool Permutation.
From Verif Require Import Base BuddyModel.
Import ListNotations.
Open Scope Z_scope.

(** Byte [x] lies in block [b]. *)
Definition inb (b : block) (x : Z) : Prop := fst b <= x < fst b + snd b.
Definition covers (l : list block) (x : Z) : Prop := exists b, In b l /\ inb b x.
Definition disjoint (b c : block) : Prop := forall x, inb b x -> inb c x -> False.
Fixpoint pwd (l : list block) : Prop :=
  match l with
  | [] => True
  | b :: r => (forall c, In c r -> disjoint b c) /\ pwd r
  end.
(** Naturally aligned power-of-two block of at least 2^cb bytes. *)
Definition wfb (cb : Z) (b : block) : Prop :=
  exists n, cb <= n /\ snd b = 2 ^ n /\ (2 ^ n | fst b).
Definition wfl (cb : Z) (l : list block) : Prop := (forall b, In b l -> wfb cb b) /\ pwd l.

Lemma disjoint_sym b c : disjoint b c -> disjoint c b.
Proof. intros H x A B. exact (H x B A). Qed.

Lemma pwd_perm l l' : Permutation l l' -> pwd l -> pwd l'.
Proof.
  induction 1 as [|b l l' P IH|b c l|l l' l'' P1 IH1 P2 IH2]; cbn; auto.
  - intros [A B]. split; [|auto]. intros d Hd. apply A.
    eapply Permutation_in; [apply Permutation_sym; exact P|exact Hd].
  - intros [A [B C]]. split; [|split; auto].
    + intros d [<-|Hd]; [|auto]. apply disjoint_sym. apply A. left; reflexivity.
Qed.

Lemma covers_perm l l' x : Permutation l l' -> covers l x -> covers l' x.
Proof.
  intros P (b & A & B). exists b. split; [|exact B]. eapply Permutation_in; eauto.
Qed.

Lemma covers_cons b l x : covers (b :: l) x <-> inb b x \/ covers l x.
Proof.
  split.
  - intros (c & [<-|A] & B); [left; exact B|right; exists c; auto].
  - intros [H|(c & A & B)]; [exists b; split; [left; reflexivity|exact H]|].
    exists c. split; [right; exact A|exact B].
Qed.

Lemma block_eqb_eq x y : block_eqb x y = true <-> x = y.
Proof.
  destruct x as [a s], y as [b t]. unfold block_eqb; cbn [fst snd].
  rewrite andb_true_iff, !Z.eqb_eq. split; [intros [-> ->]; reflexivity|intros H; injection H as -> ->; auto].
Qed.

Lemma mem_block_In x l : mem_block x l = true <-> In x l.
Proof.
  unfold mem_block. rewrite existsb_exists. split.
  - intros (y & A & B). apply block_eqb_eq in B. congruence.
  - intros H. exists x. split; [exact H|]. apply block_eqb_eq. reflexivity.
Qed.

Lemma del_block_perm x l : In x l -> Permutation l (x :: del_block x l).
Proof.
  induction l as [|y r IH]; [intros []|]. intros H. cbn.
  destruct (block_eqb x y) eqn:E.
  - apply block_eqb_eq in E. subst. reflexivity.
  - destruct H as [->|H].
    + assert (block_eqb x x = true) by (apply block_eqb_eq; reflexivity). congruence.
    + rewrite perm_swap. constructor. apply IH. exact H.
Qed.

Lemma del_block_incl x l y : In y (del_block x l) -> In y l.
Proof.
  induction l as [|z r IH]; cbn; [tauto|].
  destruct (block_eqb x z); [auto|]. intros [<-|H]; auto.
Qed.

Lemma wfl_perm cb l l' : Permutation l l' -> wfl cb l -> wfl cb l'.
Proof.
  intros P [A B]. split; [|eapply pwd_perm; eauto].
  intros b Hb. apply A. eapply Permutation_in; [apply Permutation_sym; exact P|exact Hb].
Qed.

(** ** xor and alignment *)

Lemma lxor_1 q : Z.lxor q 1 = if Z.even q then q + 1 else q - 1.
Proof.
  apply Z.bits_inj'. intros n Hn.
  rewrite Z.lxor_spec.
  destruct (Z.even q) eqn:E.
  - apply Z.even_spec in E as [m ->].
    destruct (Z.eq_dec n 0) as [->|Hne].
    + rewrite Z.testbit_even_0, Z.testbit_odd_0. reflexivity.
    + replace n with (Z.succ (n - 1)) by lia.
      rewrite Z.testbit_even_succ, Z.testbit_odd_succ by lia.
      change 1 with (2 * 0 + 1) at 2. rewrite Z.testbit_odd_succ by lia.
      rewrite Z.bits_0. apply xorb_false_r.
  - assert (O : Z.odd q = true) by (rewrite <- Z.negb_even, E; reflexivity).
    apply Z.odd_spec in O as [m ->]. replace (2 * m + 1 - 1) with (2 * m) by lia.
    destruct (Z.eq_dec n 0) as [->|Hne].
    + rewrite Z.testbit_even_0, Z.testbit_odd_0. reflexivity.
    + replace n with (Z.succ (n - 1)) by lia.
      rewrite Z.testbit_even_succ, Z.testbit_odd_succ by lia.
      change 1 with (2 * 0 + 1) at 2. rewrite Z.testbit_odd_succ by lia.
      rewrite Z.bits_0. apply xorb_false_r.
Qed.

Lemma lxor_buddy q n : 0 <= n ->
  Z.lxor (q * 2 ^ n) (2 ^ n) = if Z.even q then q * 2 ^ n + 2 ^ n else q * 2 ^ n - 2 ^ n.
Proof.
  intros Hn.
  replace (Z.lxor (q * 2 ^ n) (2 ^ n)) with (Z.lxor q 1 * 2 ^ n).
  - rewrite lxor_1. destruct (Z.even q); lia.
  - rewrite <- (Z.shiftl_mul_pow2 q n), <- (Z.shiftl_mul_pow2 (Z.lxor q 1) n) by lia.
    rewrite <- Z.shiftl_1_l.
    rewrite Z.shiftl_lxor. reflexivity.
Qed.

Lemma align_down_mult a s : 0 < s -> (s | align_down a s).
Proof.
  intros H. unfold align_down. exists (a / s).
  pose proof (Z.div_mod a s). lia.
Qed.

Lemma align_down_bounds a s : 0 < s -> align_down a s <= a < align_down a s + s.
Proof. intros H. unfold align_down. pose proof (Z.mod_pos_bound a s H). lia. Qed.

Lemma align_down_pair q n : 0 <= n ->
  align_down (q * 2 ^ n) (2 * 2 ^ n)
  = if Z.even q then q * 2 ^ n else q * 2 ^ n - 2 ^ n.
Proof.
  intros Hn. assert (P : 0 < 2 ^ n) by (apply Z.pow_pos_nonneg; lia).
  unfold align_down. destruct (Z.even q) eqn:E.
  - apply Z.even_spec in E as [m ->].
    replace (2 * m * 2 ^ n) with (m * (2 * 2 ^ n)) by ring.
    rewrite Z.mod_mul by lia. lia.
  - assert (O : Z.odd q = true) by (rewrite <- Z.negb_even, E; reflexivity).
    apply Z.odd_spec in O as [m ->].
    replace ((2 * m + 1) * 2 ^ n) with (2 ^ n + m * (2 * 2 ^ n)) by ring.
    rewrite Z.mod_add by lia. rewrite Z.mod_small by lia. lia.
Qed.

(** An aligned block and its buddy make exactly the double block. *)
Lemma buddy_union a n : 0 <= n -> (2 ^ n | a) ->
  let s := 2 ^ n in
  forall x, inb (align_down a (2 * s), 2 * s) x <-> inb (a, s) x \/ inb (Z.lxor a s, s) x.
Proof.
  intros Hn [q ->] s x. unfold s. rewrite lxor_buddy, align_down_pair by exact Hn.
  unfold inb; cbn [fst snd]. destruct (Z.even q); lia.
Qed.

Lemma wfb_pos cb b : 0 <= cb -> wfb cb b -> 0 < snd b.
Proof. intros H (n & A & -> & _). apply Z.pow_pos_nonneg; lia. Qed.

(** ** add_block on aligned blocks *)

Lemma add_block_f_spec cb : 0 <= cb -> forall fuel free a s,
  wfl cb free -> wfb cb (a, s) -> (forall b, In b free -> disjoint (a, s) b) ->
  wfl cb (add_block_f fuel free a s) /\
  (forall x, covers (add_block_f fuel free a s) x <-> inb (a, s) x \/ covers free x).
Proof.
  intros Hcb. induction fuel as [|f IH]; intros free a s [W1 W2] Wb D.
  - cbn [add_block_f]. split.
    + split; [intros b [<-|Hb]; auto|cbn; auto].
    + intros x. apply covers_cons.
  - cbn [add_block_f].
    destruct (mem_block (Z.lxor a s, s) free) eqn:M.
    2:{ split.
        + split; [intros b [<-|Hb]; auto|cbn; auto].
        + intros x. apply covers_cons. }
    apply mem_block_In in M.
    pose proof (del_block_perm _ _ M) as P.
    set (free' := del_block (Z.lxor a s, s) free) in *.
    pose proof (wfl_perm _ _ _ P (conj W1 W2)) as [W1' W2'].
    cbn in W2'. destruct W2' as [W2a W2b].
    destruct Wb as (n & Hn & Hs & Ha). cbn [fst snd] in Hs, Ha. subst s.
    pose proof (buddy_union a n ltac:(lia) Ha) as U. cbn zeta in U.
    destruct (IH free' (align_down a (2 * 2 ^ n)) (2 * 2 ^ n)) as [I1 I2].
    + split; [intros b Hb; apply W1'; right; exact Hb|exact W2b].
    + exists (n + 1). cbn [fst snd]. replace (2 ^ (n + 1)) with (2 * 2 ^ n)
        by (rewrite Z.pow_add_r by lia; lia).
      split; [lia|]. split; [reflexivity|].
      apply align_down_mult. assert (0 < 2 ^ n) by (apply Z.pow_pos_nonneg; lia). lia.
    + intros b Hb x Hx1 Hx2. apply U in Hx1 as [Hx1|Hx1].
      * apply (D b) with x; auto. eapply del_block_incl; exact Hb.
      * apply (W2a b Hb x); auto.
    + split; [exact I1|]. intros x. rewrite I2, U.
      split.
      * intros [[H|H]|H]; auto.
        { right. exists (Z.lxor a (2 ^ n), 2 ^ n). auto. }
        { right. eapply covers_perm; [apply Permutation_sym; exact P|].
          apply covers_cons. auto. }
      * intros [H|H]; auto. apply (covers_perm _ _ _ P) in H. apply covers_cons in H.
        destruct H; auto.
Qed.

Lemma add_block_spec cb free a s : 0 <= cb ->
  wfl cb free -> wfb cb (a, s) -> (forall b, In b free -> disjoint (a, s) b) ->
  wfl cb (add_block free a s) /\
  (forall x, covers (add_block free a s) x <-> inb (a, s) x \/ covers free x).
Proof. intros. apply add_block_f_spec; auto. Qed.

(** ** remove_block on aligned blocks *)

Lemma min_block_In l s a : min_block l s = Some a -> In (a, s) l.
Proof.
  revert a. induction l as [|[b t] r IH]; intros a; cbn; [discriminate|].
  destruct (t =? s) eqn:E.
  - apply Z.eqb_eq in E. subst t. destruct (min_block r s) as [c|].
    + intros H. injection H as <-. destruct (Z.min_spec b c) as [[_ ->]|[_ ->]];
        [left; reflexivity|right; apply IH; reflexivity].
    + intros H. injection H as <-. left. reflexivity.
  - intros H. right. apply IH. exact H.
Qed.

Lemma min_block_None l s : min_block l s = None -> forall a, ~ In (a, s) l.
Proof.
  induction l as [|[b t] r IH]; cbn; [tauto|].
  destruct (t =? s) eqn:E.
  - destruct (min_block r s); discriminate.
  - intros H a [HH|HH]; [|exact (IH H a HH)].
    injection HH as -> ->. rewrite Z.eqb_refl in E. discriminate.
Qed.

Lemma remove_block_f_spec cb : 0 <= cb -> forall fuel free n a free',
  cb <= n -> wfl cb free ->
  remove_block_f fuel free (2 ^ n) = Some (a, free') ->
  wfl cb free' /\ (2 ^ n | a) /\
  (forall x, inb (a, 2 ^ n) x -> covers free x) /\
  (forall x, covers free' x <-> covers free x /\ ~ inb (a, 2 ^ n) x).
Proof.
  intros Hcb. induction fuel as [|f IH]; intros free n a free' Hn Wf H; cbn [remove_block_f] in H.
  - destruct (min_block free (2 ^ n)) as [b|] eqn:M; [|discriminate].
    injection H as <- <-. apply min_block_In in M.
    pose proof (del_block_perm _ _ M) as P.
    pose proof (wfl_perm _ _ _ P Wf) as [W1 [W2 W3]].
    split; [split; [intros c Hc; apply W1; right; exact Hc|exact W3]|].
    split.
    { destruct (W1 (b, 2 ^ n) (or_introl eq_refl)) as (k & A & B & C). cbn [fst snd] in *.
      rewrite B. exact C. }
    split.
    { intros x Hx. exists (b, 2 ^ n). auto. }
    intros x. split.
    + intros Hx. split.
      * eapply covers_perm; [apply Permutation_sym; exact P|]. apply covers_cons. auto.
      * intros Hx2. destruct Hx as (c & Hc & Hcx). exact (W2 c Hc x Hx2 Hcx).
    + intros [Hx Hn']. apply (covers_perm _ _ _ P) in Hx. apply covers_cons in Hx.
      destruct Hx as [Hx|Hx]; [contradiction|exact Hx].
  - destruct (min_block free (2 ^ n)) as [b|] eqn:M.
    + injection H as <- <-. apply min_block_In in M.
      pose proof (del_block_perm _ _ M) as P.
      pose proof (wfl_perm _ _ _ P Wf) as [W1 [W2 W3]].
      split; [split; [intros c Hc; apply W1; right; exact Hc|exact W3]|].
      split.
      { destruct (W1 (b, 2 ^ n) (or_introl eq_refl)) as (k & A & B & C). cbn [fst snd] in *.
        rewrite B. exact C. }
      split.
      { intros x Hx. exists (b, 2 ^ n). auto. }
      intros x. split.
      * intros Hx. split.
        { eapply covers_perm; [apply Permutation_sym; exact P|]. apply covers_cons. auto. }
        { intros Hx2. destruct Hx as (c & Hc & Hcx). exact (W2 c Hc x Hx2 Hcx). }
      * intros [Hx Hn']. apply (covers_perm _ _ _ P) in Hx. apply covers_cons in Hx.
        destruct Hx as [Hx|Hx]; [contradiction|exact Hx].
    + replace (2 * 2 ^ n) with (2 ^ (n + 1)) in H by (rewrite Z.pow_add_r by lia; lia).
      destruct (remove_block_f f free (2 ^ (n + 1))) as [[b fr]|] eqn:E; [|discriminate].
      injection H as <- <-.
      destruct (IH free (n + 1) b fr ltac:(lia) Wf E) as (I1 & I2 & I3 & I4).
      assert (P2 : 2 ^ (n + 1) = 2 * 2 ^ n) by (rewrite Z.pow_add_r by lia; lia).
      assert (Pp : 0 < 2 ^ n) by (apply Z.pow_pos_nonneg; lia).
      assert (Dv : (2 ^ n | b)).
      { apply Z.divide_trans with (2 ^ (n + 1)); [|exact I2]. rewrite P2. exists 2. lia. }
      destruct (add_block_spec cb fr (b + 2 ^ n) (2 ^ n) Hcb I1) as [A1 A2].
      { exists n. cbn [fst snd]. split; [lia|]. split; [reflexivity|].
        apply Z.divide_add_r; [exact Dv|apply Z.divide_refl]. }
      { intros c Hc x Hx Hcx.
        assert (HH : covers fr x) by (exists c; auto). apply I4 in HH as [_ HH].
        apply HH. unfold inb in *; cbn [fst snd] in *. lia. }
      split; [exact A1|]. split; [exact Dv|]. split.
      * intros x Hx. apply I3. unfold inb in *; cbn [fst snd] in *. lia.
      * intros x. rewrite A2, I4. split.
        { intros [Hx|[Hx1 Hx2]].
          - split; [apply I3|]; unfold inb in *; cbn [fst snd] in *; lia.
          - split; [exact Hx1|]. unfold inb in *; cbn [fst snd] in *. lia. }
        { intros [Hx1 Hx2].
          destruct (Z_lt_le_dec x (b + 2 ^ n)) as [L|L];
            [right; split; [exact Hx1|]; unfold inb in *; cbn [fst snd] in *; lia|].
          destruct (Z_lt_le_dec x (b + 2 * 2 ^ n)) as [L2|L2];
            [left; unfold inb; cbn [fst snd]; lia|].
          right. split; [exact Hx1|]. unfold inb; cbn [fst snd]. lia. }
Qed.

Lemma alloc_range_spec cb free n a free' : 0 <= cb -> cb <= n -> wfl cb free ->
  alloc_range free (2 ^ n) = Some (a, free') ->
  wfl cb free' /\ (2 ^ n | a) /\
  (forall x, inb (a, 2 ^ n) x -> covers free x) /\
  (forall x, covers free' x <-> covers free x /\ ~ inb (a, 2 ^ n) x).
Proof. intros. eapply remove_block_f_spec; eauto. Qed.

(** Exhaustion: the allocator answers None only if no free block is large
    enough (for sizes below 2^64). *)
Lemma remove_block_f_None : forall fuel free n k a,
  0 <= n -> remove_block_f fuel free (2 ^ n) = None ->
  n <= k -> k <= n + Z.of_nat fuel -> ~ In (a, 2 ^ k) free.
Proof.
  induction fuel as [|f IH]; intros free n k a Hn H A B; cbn [remove_block_f] in H.
  - destruct (min_block free (2 ^ n)) eqn:M; [discriminate|].
    assert (k = n) by lia. subst. apply min_block_None. exact M.
  - destruct (min_block free (2 ^ n)) eqn:M; [discriminate|].
    destruct (Z.eq_dec k n) as [->|Hne].
    + apply min_block_None. exact M.
    + replace (2 * 2 ^ n) with (2 ^ (n + 1)) in H by (rewrite Z.pow_add_r by lia; lia).
      destruct (remove_block_f f free (2 ^ (n + 1))) as [[? ?]|] eqn:E; [discriminate|].
      apply (IH free (n + 1) k a); [lia|exact E|lia|lia].
Qed.

Lemma remove_block_f_Some_iff : forall fuel free n,
  0 <= n ->
  (exists r, remove_block_f fuel free (2 ^ n) = Some r) <->
  (exists k a, n <= k <= n + Z.of_nat fuel /\ In (a, 2 ^ k) free).
Proof.
  intros fuel free n Hn. split.
  - intros [r H]. revert n Hn r H. induction fuel as [|f IH]; intros n Hn r H;
      cbn [remove_block_f] in H.
    + destruct (min_block free (2 ^ n)) as [b|] eqn:M; [|discriminate].
      exists n, b. split; [lia|]. apply min_block_In. exact M.
    + destruct (min_block free (2 ^ n)) as [b|] eqn:M.
      * exists n, b. split; [lia|]. apply min_block_In. exact M.
      * replace (2 * 2 ^ n) with (2 ^ (n + 1)) in H by (rewrite Z.pow_add_r by lia; lia).
        destruct (remove_block_f f free (2 ^ (n + 1))) as [[b fr]|] eqn:E; [|discriminate].
        destruct (IH (n + 1) ltac:(lia) _ E) as (k & c & A & B).
        exists k, c. split; [lia|exact B].
  - intros (k & a & A & B). destruct (remove_block_f fuel free (2 ^ n)) as [r|] eqn:E; [eauto|].
    exfalso. eapply (remove_block_f_None fuel free n k a); eauto; lia.
Qed.

(** ** Without alignment: blocks still stay inside the naturally aligned region *)

(** Power-of-two size, inside the region [lo, lo + 2^r), chunk-aligned. *)
Definition rough (cb lo r : Z) (b : block) : Prop :=
  exists n, cb <= n /\ snd b = 2 ^ n /\ (2 ^ cb | fst b)
            /\ lo <= fst b /\ fst b + snd b <= lo + 2 ^ r.
Definition roughl cb lo r (l : list block) : Prop := forall b, In b l -> rough cb lo r b.

Lemma divide_pow2 a b : 0 <= a <= b -> (2 ^ a | 2 ^ b).
Proof.
  intros H. exists (2 ^ (b - a)). rewrite <- Z.pow_add_r by lia. f_equal. lia.
Qed.

Lemma lxor_self_neq a s : s <> 0 -> Z.lxor a s <> a.
Proof.
  intros H E. apply H. assert (Z.lxor a (Z.lxor a s) = Z.lxor a a) by (rewrite E; reflexivity).
  rewrite <- Z.lxor_assoc, Z.lxor_nilpotent, Z.lxor_0_l in H0. exact H0.
Qed.

Lemma align_down_in_region lo r a n :
  0 <= n <= r -> (2 ^ r | lo) -> lo <= a < lo + 2 ^ r ->
  lo <= align_down a (2 ^ n) /\ align_down a (2 ^ n) + 2 ^ n <= lo + 2 ^ r.
Proof.
  intros Hn Hlo Ha.
  assert (P : 0 < 2 ^ n) by (apply Z.pow_pos_nonneg; lia).
  pose proof (align_down_bounds a (2 ^ n) P) as B.
  destruct (align_down_mult a (2 ^ n) P) as [q Hq].
  assert (D1 : (2 ^ n | lo)) by (apply Z.divide_trans with (2 ^ r); auto using divide_pow2).
  destruct D1 as [u Hu].
  assert (D2 : (2 ^ n | 2 ^ r)) by (apply divide_pow2; lia).
  destruct D2 as [v Hv].
  split.
  - rewrite Hq in *. rewrite Hu in *.
    assert (u < q + 1) by (apply Z.mul_lt_mono_pos_r with (2 ^ n); lia).
    apply Z.mul_le_mono_nonneg_r; lia.
  - rewrite Hq in *. rewrite Hu, Hv in *.
    assert (q < u + v) by (apply Z.mul_lt_mono_pos_r with (2 ^ n); lia).
    assert ((q + 1) * 2 ^ n <= (u + v) * 2 ^ n) by (apply Z.mul_le_mono_nonneg_r; lia). lia.
Qed.

Lemma add_block_f_rough cb lo r : 0 <= cb <= r -> (2 ^ r | lo) -> forall fuel free a s,
  roughl cb lo r free -> rough cb lo r (a, s) ->
  roughl cb lo r (add_block_f fuel free a s).
Proof.
  intros Hcb Hlo. induction fuel as [|f IH]; intros free a s R Rb.
  - cbn. intros b [<-|Hb]; auto.
  - cbn [add_block_f]. destruct (mem_block (Z.lxor a s, s) free) eqn:M.
    2:{ intros b [<-|Hb]; auto. }
    apply mem_block_In in M. apply IH.
    + intros b Hb. apply R. eapply del_block_incl; exact Hb.
    + destruct (R _ M) as (m & M1 & M2 & M3 & M4 & M5).
      destruct Rb as (n & N1 & N2 & N3 & N4 & N5). cbn [fst snd] in *. subst s.
      assert (P : 0 < 2 ^ n) by (apply Z.pow_pos_nonneg; lia).
      assert (Hnr : n + 1 <= r).
      { destruct (Z_lt_le_dec n r) as [L|L]; [lia|]. exfalso.
        assert (2 ^ r <= 2 ^ n) by (apply Z.pow_le_mono_r; lia).
        apply (lxor_self_neq a (2 ^ n)); [lia|]. lia. }
      replace (2 * 2 ^ n) with (2 ^ (n + 1)) by (rewrite Z.pow_add_r by lia; lia).
      exists (n + 1). cbn [fst snd].
      destruct (align_down_in_region lo r a (n + 1) ltac:(lia) Hlo ltac:(lia)) as [A B].
      repeat split; try lia.
      apply Z.divide_trans with (2 ^ (n + 1)); [apply divide_pow2; lia|].
      apply align_down_mult. apply Z.pow_pos_nonneg; lia.
Qed.

Lemma remove_block_f_rough cb lo r : 0 <= cb <= r -> (2 ^ r | lo) ->
  forall fuel free n a free',
  cb <= n -> roughl cb lo r free ->
  remove_block_f fuel free (2 ^ n) = Some (a, free') ->
  roughl cb lo r free' /\ rough cb lo r (a, 2 ^ n).
Proof.
  intros Hcb Hlo. induction fuel as [|f IH]; intros free n a free' Hn R H;
    cbn [remove_block_f] in H.
  - destruct (min_block free (2 ^ n)) as [b|] eqn:M; [|discriminate].
    injection H as <- <-. apply min_block_In in M.
    split; [intros c Hc; apply R; eapply del_block_incl; exact Hc|apply R; exact M].
  - destruct (min_block free (2 ^ n)) as [b|] eqn:M.
    + injection H as <- <-. apply min_block_In in M.
      split; [intros c Hc; apply R; eapply del_block_incl; exact Hc|apply R; exact M].
    + replace (2 * 2 ^ n) with (2 ^ (n + 1)) in H by (rewrite Z.pow_add_r by lia; lia).
      destruct (remove_block_f f free (2 ^ (n + 1))) as [[b fr]|] eqn:E; [|discriminate].
      injection H as <- <-.
      destruct (IH free (n + 1) b fr ltac:(lia) R E) as [I1 (m & M1 & M2 & M3 & M4 & M5)].
      cbn [fst snd] in *.
      assert (P2 : 2 ^ (n + 1) = 2 * 2 ^ n) by (rewrite Z.pow_add_r by lia; lia).
      assert (P : 0 < 2 ^ n) by (apply Z.pow_pos_nonneg; lia).
      split.
      * apply add_block_f_rough; auto. exists n. cbn [fst snd]. repeat split; try lia.
        apply Z.divide_add_r; [exact M3|]. apply divide_pow2. lia.
      * exists n. cbn [fst snd]. repeat split; try lia. exact M3.
Qed.

(** ** The initial free list of a sandbox *)

Lemma ctz_f_mult : forall fuel k q, (k < fuel)%nat ->
  ctz_f fuel ((2 * q + 1) * 2 ^ Z.of_nat k) = Z.of_nat k.
Proof.
  induction fuel as [|f IH]; intros k q H; [lia|].
  cbn [ctz_f]. destruct k as [|k].
  - cbn [Z.of_nat]. rewrite Z.pow_0_r, Z.mul_1_r.
    rewrite Z.even_add, Z.even_mul. reflexivity.
  - assert (E : (2 * q + 1) * 2 ^ Z.of_nat (S k) = ((2 * q + 1) * 2 ^ Z.of_nat k) * 2).
    { rewrite Nat2Z.inj_succ, Z.pow_succ_r by lia. ring. }
    rewrite E, Z.even_mul. rewrite orb_true_r.
    rewrite Z.div_mul by lia. rewrite IH by lia. lia.
Qed.

(** The blocks shm + 2^k for k = from .. from+cnt-1. *)
Fixpoint ladder (shm : Z) (from : nat) (cnt : nat) : list block :=
  match cnt with
  | O => []
  | S c => (shm + 2 ^ Z.of_nat from, 2 ^ Z.of_nat from) :: ladder shm (S from) c
  end.

Lemma log2_ladder k r : 0 <= k < r -> Z.log2 (2 ^ r - 2 ^ k) = r - 1.
Proof.
  intros H. apply Z.log2_unique; [lia|].
  assert (2 ^ k <= 2 ^ (r - 1)) by (apply Z.pow_le_mono_r; lia).
  assert (2 ^ r = 2 * 2 ^ (r - 1)).
  { replace r with (Z.succ (r - 1)) at 1 by lia. rewrite Z.pow_succ_r by lia. reflexivity. }
  replace (Z.succ (r - 1)) with r by lia.
  assert (0 < 2 ^ k) by (apply Z.pow_pos_nonneg; lia). lia.
Qed.

Lemma pow2_blocks_f_ladder shm r : (2 ^ Z.of_nat r | shm) -> (r <= 64)%nat ->
  forall cnt k fuel, (k + cnt = r)%nat -> (3 <= k)%nat -> (cnt < fuel)%nat ->
  pow2_blocks_f fuel (shm + 2 ^ Z.of_nat k) (2 ^ Z.of_nat r - 2 ^ Z.of_nat k) = ladder shm k cnt.
Proof.
  intros [u Hu] Hr. induction cnt as [|c IH]; intros k fuel Hk H3 Hf;
    (destruct fuel as [|f]; [lia|]); cbn [pow2_blocks_f ladder].
  - assert (k = r) by lia. subst k. rewrite Z.sub_diag. reflexivity.
  - assert (P8 : 2 ^ 3 <= 2 ^ Z.of_nat k) by (apply Z.pow_le_mono_r; lia).
    assert (Pk : 2 ^ Z.of_nat (S k) = 2 * 2 ^ Z.of_nat k)
      by (rewrite Nat2Z.inj_succ, Z.pow_succ_r by lia; reflexivity).
    assert (Pr : 2 ^ Z.of_nat (S k) <= 2 ^ Z.of_nat r) by (apply Z.pow_le_mono_r; lia).
    destruct (2 ^ Z.of_nat r - 2 ^ Z.of_nat k <? 8) eqn:E; [lia|].
    rewrite log2_ladder by lia.
    assert (Hc : ctz_f 64 (shm + 2 ^ Z.of_nat k) = Z.of_nat k).
    { replace (shm + 2 ^ Z.of_nat k)
        with ((2 * (u * 2 ^ (Z.of_nat r - Z.of_nat k - 1)) + 1) * 2 ^ Z.of_nat k);
        [apply ctz_f_mult; lia|].
      rewrite Hu. replace (2 ^ Z.of_nat r)
          with (2 * 2 ^ (Z.of_nat r - Z.of_nat k - 1) * 2 ^ Z.of_nat k); [ring|].
        rewrite <- Z.pow_succ_r by lia. rewrite <- Z.pow_add_r by lia. f_equal. lia. }
    rewrite Hc. rewrite Z.min_l by lia. f_equal.
    rewrite <- (IH (S k) f) by lia. f_equal; lia.
Qed.

Lemma ladder_in shm : forall cnt from b, In b (ladder shm from cnt) ->
  exists k, (from <= k < from + cnt)%nat /\ b = (shm + 2 ^ Z.of_nat k, 2 ^ Z.of_nat k).
Proof.
  induction cnt as [|c IH]; intros from b; cbn; [tauto|]. intros [<-|H].
  - exists from. split; [lia|reflexivity].
  - destruct (IH _ _ H) as (k & A & ->). exists k. split; [lia|reflexivity].
Qed.

Lemma fold_add_spec cb (Hcb : 0 <= cb) : forall l free,
  wfl cb free -> (forall b, In b l -> wfb cb b) -> pwd l ->
  (forall b c, In b l -> In c free -> disjoint b c) ->
  let free' := fold_left (fun fr b => dealloc_range fr (fst b) (snd b)) l free in
  wfl cb free' /\ (forall x, covers free' x <-> covers l x \/ covers free x).
Proof.
  induction l as [|[a s] l IH]; intros free Wf Wl Pl D.
  - cbn. split; [exact Wf|]. intros x. split; [auto|intros [(b & [] & _)|H]; exact H].
  - cbn [fold_left fst snd]. destruct Pl as [P1 P2].
    destruct (add_block_spec cb free a s Hcb Wf) as [A1 A2].
    { apply Wl. left; reflexivity. }
    { intros b Hb. apply D; [left; reflexivity|exact Hb]. }
    destruct (IH (dealloc_range free a s)) as [I1 I2]; auto.
    { intros b Hb. apply Wl. right; exact Hb. }
    { intros b c Hb Hc x Hx Hcx.
      assert (HH : covers (dealloc_range free a s) x) by (exists c; auto).
      apply A2 in HH as [HH|(d & Hd & HH)].
      - exact (P1 b Hb x HH Hx).
      - exact (D b d (or_intror Hb) Hd x Hx HH). }
    split; [exact I1|]. intros x. rewrite I2. unfold dealloc_range. rewrite A2, covers_cons. tauto.
Qed.

Lemma ladder_covers shm : forall cnt from x,
  covers (ladder shm from cnt) x <->
  shm + 2 ^ Z.of_nat from <= x < shm + 2 ^ Z.of_nat (from + cnt).
Proof.
  induction cnt as [|c IH]; intros from x.
  - rewrite Nat.add_0_r. cbn. split; [intros (b & [] & _)|lia].
  - cbn [ladder]. rewrite covers_cons, IH. unfold inb; cbn [fst snd].
    replace (from + S c)%nat with (S from + c)%nat by lia.
    assert (Pk : 2 ^ Z.of_nat (S from) = 2 * 2 ^ Z.of_nat from)
      by (rewrite Nat2Z.inj_succ, Z.pow_succ_r by lia; reflexivity).
    assert (2 ^ Z.of_nat (S from) <= 2 ^ Z.of_nat (S from + c)) by (apply Z.pow_le_mono_r; lia).
    assert (0 < 2 ^ Z.of_nat from) by (apply Z.pow_pos_nonneg; lia). lia.
Qed.

Lemma ladder_pwd shm : forall cnt from, pwd (ladder shm from cnt).
Proof.
  induction cnt as [|c IH]; intros from; cbn [ladder pwd]; [exact I|].
  split; [|apply IH]. intros b Hb x Hx Hbx.
  assert (HH : covers (ladder shm (S from) c) x) by (exists b; auto).
  apply ladder_covers in HH. unfold inb in Hx; cbn [fst snd] in Hx.
  assert (Pk : 2 ^ Z.of_nat (S from) = 2 * 2 ^ Z.of_nat from)
    by (rewrite Nat2Z.inj_succ, Z.pow_succ_r by lia; reflexivity). lia.
Qed.

Lemma align_up_header shm cb hdr : 0 <= cb -> (2 ^ cb | shm) -> 0 < hdr <= 2 ^ cb ->
  align_up (shm + hdr) (2 ^ cb) = shm + 2 ^ cb.
Proof.
  intros Hcb [q ->] Hh. unfold align_up, align_down.
  assert (0 < 2 ^ cb) by (apply Z.pow_pos_nonneg; lia).
  replace (q * 2 ^ cb + hdr + 2 ^ cb - 1) with (hdr - 1 + (q + 1) * 2 ^ cb) by ring.
  rewrite Z.mod_add by lia. rewrite Z.mod_small by lia. lia.
Qed.

(** After the constructor the free memory is exactly the region minus the
    chunk that holds the header, in aligned disjoint blocks. *)
Lemma initial_free_spec shm (cb r : nat) hdr :
  (3 <= cb <= r)%nat -> (r <= 64)%nat -> (2 ^ Z.of_nat r | shm) ->
  0 < hdr <= 2 ^ Z.of_nat cb ->
  let free := initial_free (2 ^ Z.of_nat cb) (shm + hdr) (2 ^ Z.of_nat r - hdr) in
  wfl (Z.of_nat cb) free /\
  (forall x, covers free x <-> shm + 2 ^ Z.of_nat cb <= x < shm + 2 ^ Z.of_nat r).
Proof.
  intros Hcr Hr Hshm Hh. cbn zeta. unfold initial_free, pow2_blocks.
  assert (D : (2 ^ Z.of_nat cb | shm)).
  { apply Z.divide_trans with (2 ^ Z.of_nat r); [apply divide_pow2; lia|exact Hshm]. }
  rewrite align_up_header by (auto; lia).
  assert (Pc : 0 < 2 ^ Z.of_nat cb) by (apply Z.pow_pos_nonneg; lia).
  replace (shm + hdr + (2 ^ Z.of_nat r - hdr)) with (shm + 2 ^ Z.of_nat r) by lia.
  assert (E : align_down (shm + 2 ^ Z.of_nat r) (2 ^ Z.of_nat cb) = shm + 2 ^ Z.of_nat r).
  { unfold align_down. assert (M : (shm + 2 ^ Z.of_nat r) mod 2 ^ Z.of_nat cb = 0); [|lia].
    apply Z.mod_divide; [lia|]. apply Z.divide_add_r; [exact D|apply divide_pow2; lia]. }
  rewrite E.
  replace (shm + 2 ^ Z.of_nat r - (shm + 2 ^ Z.of_nat cb))
    with (2 ^ Z.of_nat r - 2 ^ Z.of_nat cb) by lia.
  rewrite (pow2_blocks_f_ladder shm r Hshm Hr (r - cb) cb 130);
    [|lia|lia|lia].
  destruct (fold_add_spec (Z.of_nat cb) ltac:(lia) (ladder shm cb (r - cb)) []) as [A B].
  - split; [intros b []|exact I].
  - intros b Hb. destruct (ladder_in _ _ _ _ Hb) as (k & K1 & ->).
    exists (Z.of_nat k). cbn [fst snd]. split; [lia|]. split; [reflexivity|].
    apply Z.divide_add_r; [|apply Z.divide_refl].
    apply Z.divide_trans with (2 ^ Z.of_nat r); [apply divide_pow2; lia|exact Hshm].
  - apply ladder_pwd.
  - intros b c _ [].
  - split; [exact A|]. intros x. rewrite B, ladder_covers.
    replace (cb + (r - cb))%nat with r by lia.
    split; [intros [H|(b & [] & _)]; exact H|auto].
Qed.
