(** Proofs about MapModel.v. *)
From Coq Require Import String Ascii List ZArith Lia Bool.
From Verif Require Import Base RegionProof BuddyModel BuddyProof MapModel.
Import ListNotations.
Open Scope Z_scope.

Lemma align_up_bounds a s : 0 < s -> (s | align_up a s) /\ a <= align_up a s < a + s.
Proof.
  intros Hs. unfold align_up, align_down.
  pose proof (Z.mod_pos_bound (a + s - 1) s Hs). split; [|lia].
  exists ((a + s - 1) / s). rewrite (Z.div_mod (a + s - 1) s) at 1 by lia. lia.
Qed.

Lemma mod_divide a n : 0 < n -> (n | a) -> a mod n =? 0 = true.
Proof. intros Hn H. apply Z.eqb_eq, Z.mod_divide; [lia|exact H]. Qed.

Lemma page_divides_up page k size lg r : page = 2 ^ k -> 0 <= k <= lg -> size = 2 ^ lg ->
  (page | r) -> (page | align_up r size) /\ (page | align_up r size + size).
Proof.
  intros -> Hk -> Hr. assert (D : (2 ^ k | 2 ^ lg)) by (apply divide_pow2; lia).
  assert (P : 0 < 2 ^ lg) by (apply Z.pow_pos_nonneg; lia).
  destruct (align_up_bounds r (2 ^ lg) P) as [A _].
  split; [eapply Z.divide_trans; eauto|apply Z.divide_add_r; [eapply Z.divide_trans; eauto|exact D]].
Qed.

Ltac dec x := destruct x eqn:?; try lia.

Lemma shm_map_spec page k lg r m :
  page = 2 ^ k -> 0 <= k < lg -> lg <= 62 ->
  0 < r -> (page | r) -> r + 2 ^ lg * 2 < W ->
  let size := 2 ^ lg in
  let base := align_up r size in
  exists os, shm_map page lg r true = Ret (os, base) /\
    (forall a n, In (Unmap a n) os -> 0 < n) /\
    (forall x, (forall y, r <= y < r + size * 2 -> m y = Unmapped) ->
       apply_ops page m os x = if (base <=? x) && (x <? base + size) then Obj (x - base) else m x).
Proof.
  intros Hp Hk Hl Hr Hd Hw size base.
  assert (P : 0 < size) by (apply Z.pow_pos_nonneg; lia).
  assert (Pp : 0 < page) by (subst; apply Z.pow_pos_nonneg; lia).
  destruct (align_up_bounds r size P) as [A1 A2]. fold base in A1, A2.
  destruct (page_divides_up page k size lg r Hp ltac:(lia) eq_refl Hd) as [D1 D2]. fold base in D1, D2.
  assert (Lt : page < size) by (subst page; apply Z.pow_lt_mono_r; lia).
  fold size in Hw.
  unfold shm_map. fold size. assert (E : lg <? 64 = true) by lia. rewrite E. cbn [negb].
  assert (E1 : page <? size = true) by lia. rewrite E1.
  assert (E2 : r =? MAP_FAILED = false) by (unfold MAP_FAILED; apply Z.eqb_neq; lia). rewrite E2.
  assert (w1 : wrap (size * 2) = size * 2) by (apply wrap_small; unfold is_word; lia).
  assert (w2 : p_align_up r size = base) by (unfold p_align_up; fold base; apply wrap_small; unfold is_word; lia).
  assert (w3 : p_off base size = base + size) by (apply wrap_small; unfold is_word; lia).
  assert (w4 : p_off r (size * 2) = r + size * 2) by (apply wrap_small; unfold is_word; lia).
  rewrite w1, w2, w3, w4.
  assert (w5 : p_diff r base = base - r) by (apply wrap_small; unfold is_word; lia).
  assert (w6 : p_diff (base + size) (r + size * 2) = r + size - base).
  { unfold p_diff. rewrite wrap_small by (unfold is_word; lia). lia. }
  rewrite w5, w6. eexists. split; [reflexivity|]. split.
  { intros a n. rewrite !in_app_iff. cbn [In].
    destruct (Z.ltb_spec r base), (Z.ltb_spec (base + size) (r + size * 2)); cbn [In];
      intros [[E3|[]]|[[E3|[]]|[E3|E3]]]; try discriminate; try contradiction;
      destruct E3 as [E3|[]]; injection E3 as <- <-; lia. }
  intros x Hm.
  unfold apply_ops. rewrite !fold_left_app. cbn [fold_left apply_op].
  assert (T : forall b1 a1 n1 m1, fold_left (apply_op page) (if b1 : bool then [Unmap a1 n1] else []) m1 =
     if b1 then apply_op page m1 (Unmap a1 n1) else m1).
  { intros [] a1 n1 m1; reflexivity. }
  rewrite !T. cbn [apply_op]. rewrite (mod_divide _ _ Pp D2), (mod_divide _ _ Pp Hd). unfold fill.
  repeat match goal with |- context [if ?b then _ else _] => dec b end; try reflexivity;
    try (rewrite Hm by lia; reflexivity).
Qed.

Lemma shm_map_small_spec page k lg r m :
  page = 2 ^ k -> 0 <= lg <= k -> lg <= 62 -> (page | r) -> r <> MAP_FAILED ->
  exists os, shm_map page lg r true = Ret (os, r) /\ (2 ^ lg | r) /\
    (forall x, apply_ops page m os x = if (r <=? x) && (x <? r + 2 ^ lg) then Obj (x - r) else m x).
Proof.
  intros Hp Hk Hl Hd Hn. unfold shm_map.
  assert (E : lg <? 64 = true) by lia. rewrite E. cbn [negb].
  assert (Le : 2 ^ lg <= page) by (subst; apply Z.pow_le_mono_r; lia).
  assert (E1 : page <? 2 ^ lg = false) by lia. rewrite E1.
  apply Z.eqb_neq in Hn. rewrite Hn. eexists. split; [reflexivity|]. split.
  - apply Z.divide_trans with page; [subst; apply divide_pow2; lia|exact Hd].
  - intros x. reflexivity.
Qed.

Lemma pal_alloc_spec page k lg r m :
  page = 2 ^ k -> 0 <= k <= lg -> lg <= 62 ->
  0 < r -> (page | r) -> r + 2 ^ lg * 2 < W ->
  let size := 2 ^ lg in
  let base := align_up r size in
  snd (pal_alloc_range size r) = base /\
  (forall x, (forall y, r <= y < r + size * 2 -> m y = Unmapped) ->
     apply_ops page m (fst (pal_alloc_range size r)) x =
     if (base <=? x) && (x <? base + size) then Anon else m x) /\
  (forall a n, In (Unmap a n) (fst (pal_alloc_range size r)) -> 0 < n).
Proof.
  intros Hp Hk Hl Hr Hd Hw size base.
  assert (P : 0 < size) by (apply Z.pow_pos_nonneg; lia).
  assert (Pp : 0 < page) by (subst; apply Z.pow_pos_nonneg; lia).
  destruct (align_up_bounds r size P) as [A1 A2]. fold base in A1, A2.
  destruct (page_divides_up page k size lg r Hp ltac:(lia) eq_refl Hd) as [D1 D2]. fold base in D1, D2.
  fold size in Hw. unfold pal_alloc_range.
  assert (w1 : wrap (size * 2) = size * 2) by (apply wrap_small; unfold is_word; lia).
  assert (w2 : p_align_up r size = base) by (unfold p_align_up; fold base; apply wrap_small; unfold is_word; lia).
  assert (w3 : p_off base size = base + size) by (apply wrap_small; unfold is_word; lia).
  assert (w4 : p_off r (size * 2) = r + size * 2) by (apply wrap_small; unfold is_word; lia).
  assert (nz : r =? 0 = false) by lia.
  rewrite w1, w2, w3, w4, nz. split; [reflexivity|]. split.
  2:{ intros a n H. cbn [fst] in H. apply in_app_or in H as [H|H]; [destruct H as [H|[]]; discriminate|]. apply in_app_or in H as [H|H].
      - destruct (Z.ltb_spec (base + size) (r + size * 2)); [|destruct H]. destruct H as [H|[]]. injection H as <- <-. rewrite wrap_small by (unfold is_word; lia). lia.
      - destruct (Z.ltb_spec r base); [|destruct H]. destruct H as [H|[]]. injection H as <- <-. rewrite wrap_small by (unfold is_word; lia). lia. }
  intros x Hm. cbn [fst].
  unfold apply_ops. rewrite !fold_left_app. cbn [fold_left apply_op].
  assert (T : forall b1 a1 n1 m1, fold_left (apply_op page) (if b1 : bool then [Unmap a1 n1] else []) m1 =
     if b1 then apply_op page m1 (Unmap a1 n1) else m1).
  { intros [] a1 n1 m1; reflexivity. }
  assert (w5 : wrap (base - r) = base - r) by (apply wrap_small; unfold is_word; lia).
  assert (w6 : wrap (r + size * 2 - (base + size)) = r + size - base).
  { rewrite wrap_small by (unfold is_word; lia). lia. }
  rewrite !T. cbn [apply_op]. rewrite (mod_divide _ _ Pp Hd), (mod_divide _ _ Pp D2), w5, w6. unfold fill.
  repeat match goal with |- context [if ?b then _ else _] => dec b end; try reflexivity;
    try (rewrite Hm by lia; reflexivity).
Qed.

(** ** Hexadecimal *)

Lemma digit_nat d : 0 <= d < 16 ->
  Z.of_nat (nat_of_ascii (hex_digit d)) = if d <? 10 then 48 + d else 87 + d.
Proof.
  intros Hd. unfold hex_digit. rewrite nat_ascii_embedding.
  - rewrite Z2Nat.id; [reflexivity|]. destruct (d <? 10); lia.
  - apply Nat2Z.inj_lt. rewrite Z2Nat.id by (destruct (d <? 10); lia).
    change (Z.of_nat 256) with 256. destruct (d <? 10) eqn:E; lia.
Qed.

Lemma hex_value_digit d : 0 <= d < 16 -> hex_value (hex_digit d) = Some d.
Proof.
  intros Hd. unfold hex_value. rewrite digit_nat by exact Hd.
  destruct (d <? 10) eqn:E.
  - assert ((48 <=? 48 + d) && (48 + d <=? 57) = true) as -> by lia. f_equal. lia.
  - assert ((48 <=? 87 + d) && (87 + d <=? 57) = false) as -> by lia.
    assert ((97 <=? 87 + d) && (87 + d <=? 102) = true) as -> by lia. f_equal. lia.
Qed.

Lemma digits_hex : forall f n rest, 0 <= n < 16 ^ Z.of_nat f ->
  digits 0 (hex_f f n ++ rest) = digits n rest.
Proof.
  induction f as [|f IH]; intros n rest Hn.
  - cbn in Hn. assert (n = 0) as -> by lia. reflexivity.
  - cbn [hex_f]. destruct (n <? 16) eqn:E.
    + cbn [app digits]. rewrite hex_value_digit by lia. reflexivity.
    + rewrite Nat2Z.inj_succ, Z.pow_succ_r in Hn by lia.
      rewrite <- app_assoc, IH.
      2:{ split; [apply Z.div_pos; lia|]. apply Z.div_lt_upper_bound; lia. }
      cbn [app digits]. pose proof (Z.mod_pos_bound n 16 ltac:(lia)).
      rewrite hex_value_digit by lia. f_equal. pose proof (Z.div_mod n 16 ltac:(lia)). lia.
Qed.

Lemma hex_f_all : forall f n, 0 <= n -> Forall (fun c => exists d, hex_value c = Some d) (hex_f f n).
Proof.
  induction f as [|f IH]; intros n Hn; cbn [hex_f]; [constructor|].
  destruct (n <? 16) eqn:E.
  - constructor; [|constructor]. exists n. apply hex_value_digit. lia.
  - apply Forall_app. split; [apply IH, Z.div_pos; lia|].
    constructor; [|constructor]. eexists. apply hex_value_digit. apply Z.mod_pos_bound. lia.
Qed.

Lemma hex_f_length : forall f n, (List.length (hex_f f n) <= f)%nat.
Proof.
  induction f as [|f IH]; intros n; cbn [hex_f]; [cbn; lia|].
  destruct (n <? 16); [cbn; lia|]. rewrite app_length. cbn. specialize (IH (n / 16)). lia.
Qed.

Lemma hex_nonempty n : exists c r, hex n = c :: r.
Proof.
  unfold hex. cbn [hex_f]. destruct (n <? 16); [eauto|].
  match goal with |- exists c r, ?l ++ _ = _ => destruct l end; cbn; eauto.
Qed.

Lemma hex_value_excl c d : hex_value c = Some d ->
  is_space c = false /\ c <> "-"%char /\ c <> "+"%char /\ c <> "x"%char /\ c <> "X"%char /\ c <> colon.
Proof.
  unfold hex_value, is_space. intros H.
  assert (N : let n := Z.of_nat (nat_of_ascii c) in 48 <= n <= 57 \/ 97 <= n <= 102 \/ 65 <= n <= 70).
  { cbn zeta. repeat match type of H with context [if ?b then _ else _] => destruct b eqn:? end;
      try discriminate; lia. }
  cbn zeta in N. split; [lia|].
  repeat split; intros ->; cbn in N; lia.
Qed.

Lemma strtoull_hex n rest : is_word n -> (match rest with c :: _ => hex_value c = None /\ c <> "x"%char /\ c <> "X"%char | [] => True end) ->
  strtoull16 (hex n ++ rest) = (n, rest).
Proof.
  intros Hn Hrest. destruct (hex_nonempty n) as (c & r & E).
  pose proof (hex_f_all 16 n ltac:(unfold is_word in Hn; lia)) as F. fold (hex n) in F.
  assert (D : digits 0 (hex n ++ rest) = (n, rest)).
  { unfold hex. rewrite digits_hex.
    - destruct rest as [|x rest']; [reflexivity|]. destruct Hrest as [Hx _]. cbn [digits]. rewrite Hx. reflexivity.
    - unfold is_word, W in Hn. change (16 ^ Z.of_nat 16) with (2 ^ 64). exact Hn. }
  rewrite E in *. inversion F as [|? ? [d Hd] F']; subst.
  destruct (hex_value_excl _ _ Hd) as (X1 & X2 & X3 & X4 & X5 & _).
  unfold strtoull16. cbn [app skip_space]. rewrite X1.
  destruct (ascii_dec c "-"); [contradiction|]. destruct (ascii_dec c "+"); [contradiction|].
  assert (P : (match r ++ rest with
               | b :: r' => if ascii_dec c "0"
                   then if (if ascii_dec b "x" then true else if ascii_dec b "X" then true else false) && starts_with_digit r'
                        then r' else c :: r ++ rest
                   else c :: r ++ rest
               | [] => c :: r ++ rest end) = c :: r ++ rest).
  { destruct r as [|b r'].
    - destruct rest as [|b r']; [reflexivity|]. cbn [app]. destruct Hrest as (_ & H1 & H2).
      destruct (ascii_dec c "0"); [|reflexivity].
      destruct (ascii_dec b "x"); [contradiction|]. destruct (ascii_dec b "X"); [contradiction|]. reflexivity.
    - cbn [app]. inversion F' as [|? ? [d' Hd'] _]; subst.
      destruct (hex_value_excl _ _ Hd') as (_ & _ & _ & H1 & H2 & _).
      destruct (ascii_dec c "0"); [|reflexivity].
      destruct (ascii_dec b "x"); [contradiction|]. destruct (ascii_dec b "X"); [contradiction|]. reflexivity. }
  assert (P2 : (match c :: r ++ rest with
    | a :: b :: r0 => if ascii_dec a "0" then
        if (if ascii_dec b "x" then true else if ascii_dec b "X" then true else false) && starts_with_digit r0
        then r0 else c :: r ++ rest else c :: r ++ rest
    | _ => c :: r ++ rest end) = c :: r ++ rest).
  { cbv beta iota. destruct (r ++ rest) as [|b r0]; [reflexivity|exact P]. }
  cbv zeta. rewrite P2. cbn [starts_with_digit]. rewrite Hd.
  cbn [app] in D. rewrite D.
  unfold is_word in Hn. assert (W <=? n = false) as -> by lia. reflexivity.
Qed.

Lemma strip_prefix_app p s : strip_prefix p (p ++ s) = Some s.
Proof. induction p as [|a p IH]; cbn; [reflexivity|]. destruct (ascii_dec a a); congruence. Qed.

Lemma location_length addr size : (List.length (location_text addr size) <= 50)%nat.
Proof.
  unfold location_text. rewrite !app_length.
  pose proof (hex_f_length 16 addr). pose proof (hex_f_length 16 size). unfold hex.
  change (List.length location_name) with 17%nat. cbn [List.length]. lia.
Qed.

Lemma parent_location_eq addr size : parent_location addr size = Ret (location_text addr size).
Proof.
  unfold parent_location. pose proof (location_length addr size) as L.
  assert (Z.of_nat (List.length (location_text addr size)) <? 52 = true) as -> by lia.
  rewrite firstn_all2 by lia. reflexivity.
Qed.

Lemma find_location_skip : forall pre env,
  Forall (fun ev => strip_prefix location_name ev = None) pre ->
  find_location (pre ++ env) = find_location env.
Proof.
  induction pre as [|ev pre IH]; intros env F; [reflexivity|].
  inversion F; subst. cbn [app find_location]. rewrite H1. apply IH. assumption.
Qed.

Lemma find_location_text addr size env : is_word addr -> is_word size ->
  find_location (location_text addr size :: env) = Ret (addr, size).
Proof.
  intros Ha Hs. cbn [find_location]. unfold location_text at 1. rewrite strip_prefix_app.
  rewrite strtoull_hex; auto.
  - cbn [app]. destruct (ascii_dec colon colon); [|congruence].
    rewrite <- (app_nil_r (hex size)), strtoull_hex; auto.
  - cbn [app]. split; [reflexivity|]. split; discriminate.
Qed.
