(** Proofs about the network callbacks. *)
From Coq Require Import String Ascii List ZArith Lia Bool.
From Verif Require Import Base RegionModel RegionSpec RegionProof DispatchModel HostCallsModel HostCallsSpec.
Import ListNotations.
Open Scope Z_scope.

(** ** Reading back what was stored *)

(** Stores that stay clear of an object leave it alone. *)
Definition clear_of (x n : Z) (s : store) : Prop :=
  overlaps (fst (extent s)) (snd (extent s)) x n = false.

Lemma overlaps_false a n b m : overlaps a n b m = false <-> (b + m <= a \/ a + n <= b).
Proof. unfold overlaps. rewrite andb_false_iff, !Z.ltb_ge. tauto. Qed.

Lemma overlaps_true a n b m : overlaps a n b m = true <-> (a < b + m /\ b < a + n).
Proof. unfold overlaps. rewrite andb_true_iff, !Z.ltb_lt. tauto. Qed.

Lemma cell_step_clear x acc s : clear_of x 48 s -> cell_step x acc s = acc.
Proof.
  unfold clear_of. destruct s as [a c|a p|a p|a b|a p]; cbn [extent fst snd cell_step];
    intros H; rewrite ?H; auto.
  all: destruct (Z.eqb_spec a x); [apply overlaps_false in H; lia|auto].
Qed.

Lemma byte_step_clear x acc s : clear_of x 1 s -> byte_step x acc s = acc.
Proof.
  unfold clear_of. destruct s as [a c|a p|a p|a b|a p]; cbn [extent fst snd byte_step];
    intros H; rewrite ?H; auto.
  all: destruct (Z.eqb_spec a x); [apply overlaps_false in H; lia|auto].
Qed.

Lemma fold_clear {A} (step : Z -> option A -> store -> option A) x n
  (Hs : forall acc s, clear_of x n s -> step x acc s = acc) :
  forall ss acc, Forall (clear_of x n) ss -> fold_left (step x) ss acc = acc.
Proof.
  induction ss as [|s r IH]; intros acc H; [reflexivity|]. inversion H; subst. cbn.
  rewrite Hs by auto. auto.
Qed.

Definition within (lo hi : Z) (s : store) : Prop :=
  lo <= fst (extent s) /\ fst (extent s) + snd (extent s) <= hi.

Lemma within_clear lo hi x n ss : Forall (within lo hi) ss -> x + n <= lo \/ hi <= x -> 
  Forall (clear_of x n) ss.
Proof.
  intros F D. eapply Forall_impl; [|exact F]. intros s [A B]. unfold clear_of.
  apply overlaps_false. lia.
Qed.

Lemma byte_stores_within : forall bs p, Forall (within p (p + Z.of_nat (length bs))) (byte_stores p bs).
Proof.
  unfold byte_stores. induction bs as [|b r IH]; intros p; [constructor|]. cbn [bytes_from map].
  constructor.
  - unfold within. cbn [extent fst snd length]. lia.
  - eapply Forall_impl; [|exact (IH (p + 1))]. intros s [A B]. unfold within. cbn [length]. lia.
Qed.

(** Total length of the socket addresses. *)
Definition addr_bytes (l : list addrinfo) : Z := fold_right (fun a n => ai_addrlen a + n) 0 l.

Lemma addr_bytes_nonneg l : 0 <= addr_bytes l.
Proof.
  induction l as [|a r IH]; cbn [addr_bytes fold_right]; [lia|]. fold (addr_bytes r).
  unfold ai_addrlen. lia.
Qed.

Lemma ai_extra_eq : forall l e, 0 <= e -> e + addr_bytes l < W ->
  fold_left (fun e a => wrap (e + ai_addrlen a)) l e = e + addr_bytes l.
Proof.
  induction l as [|a r IH]; intros e He H; cbn [fold_left addr_bytes fold_right] in *; [lia|].
  fold (addr_bytes r) in *. pose proof (addr_bytes_nonneg r).
  assert (0 <= ai_addrlen a) by (unfold ai_addrlen; lia).
  rewrite wrap_small by (unfold is_word; lia). rewrite IH by lia. lia.
Qed.

(** Everything the copying loop stores lies in the two ranges. *)
Lemma ai_copy_extents : forall l cell sa,
  Forall (fun s => within cell (cell + 48 * Z.of_nat (length l)) s \/ within sa (sa + addr_bytes l) s)
    (ai_copy l cell sa).
Proof.
  induction l as [|a r IH]; intros cell sa; [constructor|].
  cbn [ai_copy addr_bytes fold_right]. fold (addr_bytes r). pose proof (addr_bytes_nonneg r).
  cbn [app]. constructor; [left; unfold within; cbn [extent fst snd]; cbn [length]; lia|].
  apply Forall_app. split.
  - eapply Forall_impl; [|apply byte_stores_within]. intros s Hs. right. unfold within, ai_addrlen in *. lia.
  - constructor; [left; unfold within; cbn [extent fst snd length]; lia|].
    constructor; [left; unfold within; cbn [extent fst snd length]; lia|].
    eapply Forall_impl; [|apply IH]. unfold sizeof_addrinfo, within. cbn [length].
    assert (0 <= ai_addrlen a) by (unfold ai_addrlen; lia).
    intros s [Hs|Hs]; [left|right]; lia.
Qed.

(** The address of the i-th socket address. *)
Definition sa_at (sa : Z) (l : list addrinfo) (i : nat) : Z := sa + addr_bytes (firstn i l).

Definition final_cell (a : addrinfo) (sa next : Z) : ai_cell :=
  AICell (ai_flags a) (ai_family a) (ai_socktype a) (ai_protocol a) (ai_addrlen a) sa (ai_canonname a) next.

Lemma cell_own : forall cell sa bs a acc, cell + 48 <= sa \/ sa + Z.of_nat (length bs) <= cell ->
  fold_left (cell_step cell) ([SCell cell (raw_cell a)] ++ byte_stores sa bs ++
    [SAddr cell sa; SNext cell (cell + sizeof_addrinfo)]) acc
  = Some (final_cell a sa (cell + 48)).
Proof.
  intros cell sa bs a acc D. rewrite !fold_left_app. cbn [fold_left cell_step]. rewrite Z.eqb_refl.
  rewrite (fold_clear _ cell 48 (cell_step_clear cell)).
  - reflexivity.
  - eapply within_clear; [apply byte_stores_within|]. lia.
Qed.

Lemma bytes_own : forall bs sa x b i, nth_error bs i = Some b -> x = sa + Z.of_nat i ->
  forall acc, fold_left (byte_step x) (byte_stores sa bs) acc = Some b.
Proof.
  induction bs as [|c r IH]; intros sa x b i Hi -> acc; [destruct i; discriminate|].
  unfold byte_stores. cbn [bytes_from map fold_left]. fold (byte_stores (sa + 1) r).
  destruct i as [|i].
  - injection Hi as ->. cbn [byte_step]. rewrite Z.add_0_r, Z.eqb_refl.
    apply (fold_clear _ _ 1 (byte_step_clear sa)).
    eapply within_clear; [apply byte_stores_within|]. lia.
  - cbn in Hi. eapply IH; eauto. lia.
Qed.

Lemma ai_copy_cells : forall l cell sa i a acc,
  cell + 48 * Z.of_nat (length l) <= sa -> nth_error l i = Some a ->
  fold_left (cell_step (cell + 48 * Z.of_nat i)) (ai_copy l cell sa) acc
  = Some (final_cell a (sa_at sa l i) (cell + 48 * Z.of_nat i + 48)).
Proof.
  induction l as [|a0 r IH]; intros cell sa i a acc D Hi; [destruct i; discriminate|].
  cbn [ai_copy]. cbn [length] in D.
  destruct i as [|i].
  - injection Hi as ->. replace (cell + 48 * Z.of_nat 0) with cell by lia.
    rewrite !app_assoc. rewrite fold_left_app. rewrite <- !app_assoc.
    rewrite cell_own by lia.
    rewrite (fold_clear _ cell 48 (cell_step_clear cell)).
    + unfold sa_at. cbn [firstn addr_bytes fold_right]. rewrite Z.add_0_r. reflexivity.
    + eapply Forall_impl; [|apply ai_copy_extents]. unfold sizeof_addrinfo.
      pose proof (addr_bytes_nonneg r). assert (0 <= ai_addrlen a) by (unfold ai_addrlen; lia).
      intros s [[A B]|[A B]]; apply overlaps_false; lia.
  - cbn in Hi. rewrite !fold_left_app.
    replace (cell + 48 * Z.of_nat (S i)) with ((cell + sizeof_addrinfo) + 48 * Z.of_nat i) by (unfold sizeof_addrinfo; lia).
    assert (0 <= ai_addrlen a0) by (unfold ai_addrlen; lia).
    rewrite (IH (cell + sizeof_addrinfo) (sa + ai_addrlen a0) i a); [|unfold sizeof_addrinfo; lia|exact Hi].
    unfold sa_at. cbn [firstn addr_bytes fold_right]. fold (addr_bytes (firstn i r)).
    do 2 f_equal. lia.
Qed.

Lemma ai_copy_bytes : forall l cell sa i a j b acc,
  cell + 48 * Z.of_nat (length l) <= sa -> nth_error l i = Some a ->
  nth_error (ai_sockaddr a) j = Some b ->
  fold_left (byte_step (sa_at sa l i + Z.of_nat j)) (ai_copy l cell sa) acc = Some b.
Proof.
  induction l as [|a0 r IH]; intros cell sa i a j b acc D Hi Hj; [destruct i; discriminate|].
  cbn [ai_copy]. cbn [length] in D. rewrite !fold_left_app.
  assert (0 <= ai_addrlen a0) by (unfold ai_addrlen; lia).
  destruct i as [|i].
  - injection Hi as ->. unfold sa_at. cbn [firstn addr_bytes fold_right]. rewrite Z.add_0_r.
    rewrite (fold_clear byte_step (sa + Z.of_nat j) 1 (byte_step_clear _) (ai_copy r _ _)).
    + rewrite (fold_clear byte_step (sa + Z.of_nat j) 1 (byte_step_clear _) [SAddr _ _; _]).
      * eapply bytes_own; eauto.
      * repeat constructor; apply overlaps_false; cbn [extent fst snd]; lia.
    + assert (L : (j < length (ai_sockaddr a))%nat) by (apply nth_error_Some; congruence).
      eapply Forall_impl; [|apply ai_copy_extents]. unfold sizeof_addrinfo, ai_addrlen in *.
      intros s [[A B]|[A B]]; apply overlaps_false; lia.
  - cbn in Hi. unfold sa_at. cbn [firstn addr_bytes fold_right]. fold (addr_bytes (firstn i r)).
    replace (sa + (ai_addrlen a0 + addr_bytes (firstn i r)) + Z.of_nat j)
      with (sa_at (sa + ai_addrlen a0) r i + Z.of_nat j) by (unfold sa_at; lia).
    eapply IH; eauto. unfold sizeof_addrinfo. lia.
Qed.

(** After the terminator and the result pointer are stored. *)
Lemma ai_built_cell : forall l ais in_res zeros, l <> [] -> 0 < ais ->
  let total := 48 * Z.of_nat (length l) + addr_bytes l in
  (in_res + 8 <= ais \/ ais + total <= in_res) ->
  let ss := zeros ++ ai_copy l ais (ais + 48 * Z.of_nat (length l)) ++
            [SNext (ais + 48 * (Z.of_nat (length l) - 1)) 0; SPtr in_res ais] in
  forall i a, nth_error l i = Some a ->
    cell_at ss (ais + 48 * Z.of_nat i) = Some (final_cell a (sa_at (ais + 48 * Z.of_nat (length l)) l i)
      (if Nat.eqb (S i) (length l) then 0 else ais + 48 * Z.of_nat (S i))).
Proof.
  intros l ais in_res zeros Hl Pa total D ss i a Hi.
  pose proof (addr_bytes_nonneg l) as Nn.
  assert (Li : (i < length l)%nat) by (apply nth_error_Some; congruence).
  unfold cell_at, ss. rewrite !fold_left_app. rewrite (ai_copy_cells l ais _ i a) by (auto; lia).
  cbn [fold_left].
  set (c := final_cell a _ _).
  assert (X : cell_step (ais + 48 * Z.of_nat i) (Some c) (SNext (ais + 48 * (Z.of_nat (length l) - 1)) 0)
    = Some (final_cell a (sa_at (ais + 48 * Z.of_nat (length l)) l i)
      (if Nat.eqb (S i) (length l) then 0 else ais + 48 * Z.of_nat (S i)))).
  { cbn [cell_step]. destruct (Nat.eqb_spec (S i) (length l)) as [E|E].
    - assert (ais + 48 * (Z.of_nat (length l) - 1) =? ais + 48 * Z.of_nat i = true) as -> by lia.
      reflexivity.
    - assert (ais + 48 * (Z.of_nat (length l) - 1) =? ais + 48 * Z.of_nat i = false) as -> by lia.
      assert (overlaps (ais + 48 * (Z.of_nat (length l) - 1) + 40) 8 (ais + 48 * Z.of_nat i) 48 = false) as ->
        by (apply overlaps_false; lia).
      unfold c, final_cell. do 2 f_equal. lia. }
  rewrite X. apply cell_step_clear. apply overlaps_false. cbn [extent fst snd]. unfold total in D. lia.
Qed.

Lemma ai_built : forall l ais in_res zeros, l <> [] -> 0 < ais ->
  let total := 48 * Z.of_nat (length l) + addr_bytes l in
  (in_res + 8 <= ais \/ ais + total <= in_res) ->
  let ss := zeros ++ ai_copy l ais (ais + 48 * Z.of_nat (length l)) ++
            [SNext (ais + 48 * (Z.of_nat (length l) - 1)) 0; SPtr in_res ais] in
  forall k, (k < length l)%nat ->
  list_at ss (ais + 48 * Z.of_nat k) (map address_of (skipn k l)).
Proof.
  intros l ais in_res zeros Hl Pa total D ss.
  pose proof (addr_bytes_nonneg l) as Nn.
  assert (CELL := ai_built_cell l ais in_res zeros Hl Pa D). fold ss in CELL.
  assert (BYTES : forall i a, nth_error l i = Some a ->
    bytes_at ss (sa_at (ais + 48 * Z.of_nat (length l)) l i) (ai_sockaddr a)).
  { intros i a Hi j b Hj. assert (Lj : (j < length (ai_sockaddr a))%nat) by (apply nth_error_Some; congruence).
    unfold byte_at, ss. rewrite !fold_left_app. rewrite (ai_copy_bytes l ais _ i a j b) by (auto; lia).
    apply (fold_clear byte_step _ 1 (byte_step_clear _)).
    assert (Lo : addr_bytes (firstn i l) + ai_addrlen a <= addr_bytes l).
    { clear -Hi. revert i Hi. induction l as [|x r IH]; intros [|i] Hi; try discriminate;
        cbn [firstn addr_bytes fold_right]; fold (addr_bytes r).
      - injection Hi as ->. pose proof (addr_bytes_nonneg r). lia.
      - fold (addr_bytes (firstn i r)). specialize (IH i Hi). lia. }
    pose proof (addr_bytes_nonneg (firstn i l)). unfold sa_at, ai_addrlen, total in *.
    constructor; [apply overlaps_false; cbn [extent fst snd]; lia|].
    constructor; [apply overlaps_false; cbn [extent fst snd]; lia|constructor]. }
  clearbody ss.
  assert (G : forall n k, (n = length l - k)%nat -> (k < length l)%nat ->
     list_at ss (ais + 48 * Z.of_nat k) (map address_of (skipn k l))).
  { induction n as [|n IH]; intros k En Hk; [lia|].
    destruct (nth_error l k) as [a|] eqn:Hn; [|apply nth_error_None in Hn; lia].
    assert (skipn k l = a :: skipn (S k) l) as ->.
    { clear -Hn. revert k Hn. induction l as [|x r IH]; intros [|k] Hn; try discriminate.
      - injection Hn as ->. reflexivity.
      - cbn in Hn. cbn [skipn]. rewrite (IH _ Hn). reflexivity. }
    cbn [map].
    specialize (CELL k a Hn). specialize (BYTES k a Hn).
    set (c := final_cell a _ _) in *.
    change (address_of a) with (Address (c_flags c) (c_family c) (c_socktype c) (c_protocol c) (ai_sockaddr a)).
    apply LA_cons; [lia|exact CELL|reflexivity|exact BYTES|].
    unfold c at 1. cbn [c_next final_cell].
    destruct (Nat.eqb_spec (S k) (length l)) as [E|E].
    - rewrite skipn_all2 by lia. constructor.
    - apply IH; lia. }
  intros k Hk. exact (G _ k eq_refl Hk).
Qed.
