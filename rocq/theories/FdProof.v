(** Proofs about the descriptor table operations and start_child. *)
From Coq Require Import List ZArith Bool Lia Arith.
From Verif Require Import Base FdModel FdSpec.
Import ListNotations.
Open Scope Z_scope.

Lemma nth_set t n d m : nth m (set_nat t n d) None = if Nat.eqb m n then d else nth m t None.
Proof.
  revert t m. induction n as [|n IH]; intros [|x t] [|m]; cbn; auto.
  - destruct m; auto.
  - rewrite IH. destruct (Nat.eqb m n); auto. destruct m; auto.
Qed.
Lemma get_nat t n : get t (Z.of_nat n) = nth n t None.
Proof. unfold get. destruct (Z.ltb_spec (Z.of_nat n) 0); [lia|]. rewrite Nat2Z.id. auto. Qed.
Lemma get_set t n d m : 0 <= n -> get (set t n d) m = if m =? n then d else get t m.
Proof.
  intros H. unfold get, set. destruct (Z.ltb_spec m 0); [destruct (Z.eqb_spec m n); auto; lia|].
  rewrite nth_set. destruct (Z.eqb_spec m n) as [->|N].
  - rewrite Nat.eqb_refl. auto.
  - destruct (Nat.eqb_spec (Z.to_nat m) (Z.to_nat n)); auto. lia.
Qed.
Lemma get_set_nat t n d m : get (set_nat t n d) m = if m =? Z.of_nat n then d else get t m.
Proof. rewrite <- get_set by lia. unfold set. rewrite Nat2Z.id. auto. Qed.
Lemma get_neg t n : n < 0 -> get t n = None.
Proof. intros. unfold get. destruct (Z.ltb_spec n 0); auto. lia. Qed.
Lemma get_pos t n d : get t n = Some d -> 0 <= n.
Proof. unfold get. destruct (Z.ltb_spec n 0); [discriminate|auto]. Qed.

Lemma lowest_free t : nth (lowest t) t None = None.
Proof. induction t as [|[x|] t IH]; cbn; auto. Qed.
Lemma lowest_min t m : (m < lowest t)%nat -> nth m t None <> None.
Proof. revert m. induction t as [|[x|] t IH]; intros [|m] H; cbn in *; try lia; try discriminate. apply IH. lia. Qed.
Lemma lowest_count t : (lowest t <= open_count t)%nat.
Proof. induction t as [|[x|] t IH]; cbn; lia. Qed.
Lemma count_set t n d : nth n t None = None -> open_count (set_nat t n (Some d)) = S (open_count t).
Proof.
  revert t. induction n as [|n IH]; intros [|[x|] t] H; cbn in *; auto; try discriminate; try (rewrite IH; auto).
  destruct n; auto.
Qed.

(** Free numbers below 8. *)
Definition holes (t : table) : nat :=
  length (filter (fun n => match nth n t None with None => true | Some _ => false end) (seq 0 8)).
Lemma filter_drop_one (f g : nat -> bool) l k : NoDup l -> In k l -> f k = true -> g k = false ->
  (forall x, x <> k -> f x = g x) -> (S (length (filter g l)) = length (filter f l))%nat.
Proof.
  induction l as [|x l IH]; cbn; [tauto|]. intros N H F G E. inversion N as [|? ? A B]; subst.
  destruct (Nat.eq_dec x k) as [->|X].
  - rewrite F, G. cbn. f_equal. f_equal. apply filter_ext_in. intros a Ha. symmetry. apply E. intros ->. auto.
  - destruct H as [H|H]; [congruence|]. rewrite (E x X). specialize (IH B H F G E). destruct (g x); cbn; lia.
Qed.
Lemma holes_set t n d : (n < 8)%nat -> nth n t None = None -> (S (holes (set_nat t n (Some d))) = holes t)%nat.
Proof.
  intros L H. unfold holes. apply (filter_drop_one _ _ _ n).
  - apply seq_NoDup.
  - apply in_seq. lia.
  - rewrite H. auto.
  - rewrite nth_set, Nat.eqb_refl. auto.
  - intros x X. rewrite nth_set. destruct (Nat.eqb_spec x n); congruence.
Qed.
Lemma holes_set_high t n d : (8 <= n)%nat -> holes (set_nat t n (Some d)) = holes t.
Proof.
  intros L. unfold holes. f_equal. apply filter_ext_in. intros x X. apply in_seq in X. rewrite nth_set.
  destruct (Nat.eqb_spec x n); auto. lia.
Qed.
Lemma holes_le t : (holes t <= 8)%nat.
Proof.
  unfold holes. generalize (seq_length 8 0). generalize (seq 0 8). intros l <-.
  induction l as [|x l IH]; cbn; auto. destruct (nth x t None); cbn; lia.
Qed.

(** [t'] is [t] with some free numbers given to descriptors satisfying [P]. *)
Definition grows (P : desc -> Prop) (t t' : table) : Prop :=
  (forall n d, get t n = Some d -> get t' n = Some d)
  /\ (forall n d, get t' n = Some d -> get t n = Some d \/ get t n = None /\ P d).
Lemma grows_refl P t : grows P t t.
Proof. split; auto. Qed.
Lemma grows_trans P t1 t2 t3 : grows P t1 t2 -> grows P t2 t3 -> grows P t1 t3.
Proof.
  intros [A B] [C D]. split; auto. intros n d H. destruct (D n d H) as [X|[X Y]]; auto.
  right. split; auto. destruct (get t1 n) as [e|] eqn:E; auto. apply A in E. congruence.
Qed.
Lemma grows_impl (P Q : desc -> Prop) t t' : (forall d, P d -> Q d) -> grows P t t' -> grows Q t t'.
Proof. intros I [A B]. split; auto. intros n d H. destruct (B n d H) as [X|[X Y]]; auto. Qed.
Lemma grows_set (P : desc -> Prop) t d : P d -> grows P t (set_nat t (lowest t) (Some d)).
Proof.
  intros H. assert (F : get t (Z.of_nat (lowest t)) = None) by (rewrite get_nat; apply lowest_free).
  split; intros n e; rewrite get_set_nat; destruct (Z.eqb_spec n (Z.of_nat (lowest t))) as [->|N]; auto.
  - congruence.
  - intros E. injection E as <-. auto.
Qed.

Definition weight (t : table) : nat := (open_count t + holes t)%nat.

Lemma open_ok limit d t : (open_count t < limit)%nat ->
  exists t' y, open_file limit (Some d) t = (t', y) /\ y = Z.of_nat (lowest t) /\ get t' y = Some d /\ 0 <= y
    /\ grows (eq d) t t' /\ get t y = None
    /\ ((y < 8 /\ weight t' = weight t /\ S (holes t') = holes t) \/ (8 <= y /\ (weight t' = weight t + 1)%nat /\ holes t' = holes t)).
Proof.
  intros L. pose proof (lowest_count t) as C. unfold open_file. destruct (Nat.ltb_spec (lowest t) limit); [|lia].
  do 2 eexists. split; [reflexivity|]. split; [reflexivity|]. split; [|split; [lia|split; [|split]]].
  - rewrite get_set_nat, Z.eqb_refl. auto.
  - apply grows_set. auto.
  - rewrite get_nat. apply lowest_free.
  - unfold weight. pose proof (lowest_free t) as F. rewrite (count_set _ _ _ F).
    destruct (Nat.lt_ge_cases (lowest t) 8) as [X|X].
    + left. pose proof (holes_set t _ d X F). lia.
    + right. rewrite holes_set_high by lia. lia.
Qed.

Lemma inherit_idem d : inherit (inherit d) = inherit d.
Proof. reflexivity. Qed.

(** A successful move: the result is a number from 8 up for the same file. *)
Lemma move_loop_ok limit : forall fuel x t d, get t x = Some d -> (holes t + 1 < fuel)%nat -> (weight t + 1 <= limit)%nat ->
  exists t' y, move_loop fuel limit x t = Ret (t', y) /\ 8 <= y /\ get t' y = Some (if x <? 8 then inherit d else d)
    /\ grows (eq (inherit d)) t t' /\ (weight t' <= weight t + 1)%nat /\ (holes t' <= holes t)%nat
    /\ (x < 8 -> get t y = None) /\ (8 <= x -> t' = t /\ y = x).
Proof.
  induction fuel as [|fuel IH]; intros x t d G F L; [lia|]. cbn [move_loop]. unfold OtherLibraries in *. destruct (Z.ltb_spec x 8) as [X|X].
  - unfold dup. rewrite G. cbn [option_map].
    destruct (open_ok limit (inherit d) t) as (t1 & y & E & Ey & Gy & Py & Gr & Fr & W); [unfold weight in L; lia|].
    rewrite E. destruct W as [(Y & W & H)|(Y & W & H)].
    + destruct (IH y t1 (inherit d) Gy) as (t2 & z & E2 & Z8 & Gz & Gr2 & W2 & H2 & N2 & _); try lia.
      exists t2, z. rewrite E2. rewrite inherit_idem in *.
      split; [auto|]. split; [auto|]. split; [rewrite Gz; destruct (y <? 8); auto|].
      split; [apply (grows_trans _ _ _ _ Gr Gr2)|]. split; [lia|]. split; [lia|]. split; [|intros; lia].
      intros _. specialize (N2 Y). destruct (get t z) as [e|] eqn:Q; auto. destruct Gr as [A _]. apply A in Q. congruence.
    + destruct fuel as [|fuel]; [lia|]. cbn [move_loop]. unfold OtherLibraries. destruct (Z.ltb_spec y 8); [lia|].
      exists t1, y. split; [auto|]. split; [auto|]. split; [auto|]. split; [auto|]. split; [lia|]. split; [lia|]. split; [auto|intros; lia].
  - exists t, x. split; [auto|]. split; [auto|]. split; [auto|]. split; [apply grows_refl|]. split; [lia|]. split; [lia|]. split; [intros; lia|auto].
Qed.
Lemma move_fd_ok debug limit fuel x t d : get t x = Some d -> (9 < fuel)%nat -> (weight t + 1 <= limit)%nat ->
  exists t' y, move_fd debug fuel limit x t = Ret (t', y) /\ 8 <= y /\ get t' y = Some (if x <? 8 then inherit d else d)
    /\ grows (eq (inherit d)) t t' /\ (weight t' <= weight t + 1)%nat /\ (holes t' <= holes t)%nat
    /\ (x < 8 -> get t y = None) /\ (8 <= x -> t' = t /\ y = x).
Proof.
  intros G F L. unfold move_fd. pose proof (get_pos _ _ _ G). destruct (Z.ltb_spec x 0); [lia|]. rewrite andb_false_r.
  apply move_loop_ok; auto. pose proof (holes_le t). lia.
Qed.

(** Moving a low number leaves no free number below 8. *)
Definition filled (t : table) : Prop := forall n, 0 <= n < 8 -> get t n <> None.
Lemma lowest_filled t : (8 <= lowest t)%nat -> filled t.
Proof. intros L n N. rewrite <- (Z2Nat.id n), get_nat by lia. apply lowest_min. lia. Qed.
Lemma filled_grows P t t' : grows P t t' -> filled t -> filled t'.
Proof. intros [A _] F n N E. specialize (F n N). destruct (get t n) as [d|] eqn:Q; [|auto]. apply A in Q. congruence. Qed.
Lemma move_fills limit : forall fuel x t t' y, move_loop fuel limit x t = Ret (t', y) -> x < 8 \/ filled t -> filled t'.
Proof.
  induction fuel as [|fuel IH]; intros x t t' y E H; cbn [move_loop] in E; [discriminate|]. unfold OtherLibraries in E.
  destruct (Z.ltb_spec x 8) as [X|X].
  - unfold dup, open_file in E. destruct (get t x) as [d|]; cbn [option_map] in E; [|apply IH in E; auto; left; lia].
    destruct (lowest t <? limit)%nat; [|apply IH in E; auto; left; lia]. apply IH in E; auto.
    destruct (Z.ltb_spec (Z.of_nat (lowest t)) 8); [left; lia|right].
    apply (filled_grows (eq (inherit d)) t); [apply grows_set; auto|apply lowest_filled; lia].
  - injection E as <- <-. destruct H; [lia|auto].
Qed.

Lemma get_dup2 x n t d m : get t x = Some d -> 0 <= n -> x <> n ->
  get (dup2 x n t) m = if m =? n then Some (inherit d) else get t m.
Proof. intros G P N. unfold dup2. rewrite G. destruct (Z.eqb_spec x n); [congruence|]. apply get_set. auto. Qed.
Lemma nth_firstn (A : Type) (l : list A) k m x : nth m (firstn k l) x = if (m <? k)%nat then nth m l x else x.
Proof.
  revert l m. induction k as [|k IH]; intros [|y l] [|m]; auto; cbn [firstn nth].
  - destruct (S m <? S k)%nat; auto.
  - rewrite IH. reflexivity.
Qed.
Lemma get_closefrom t n m : 0 <= n -> get (closefrom n t) m = if m <? n then get t m else None.
Proof.
  intros H. unfold closefrom, get. destruct (Z.ltb_spec m 0); [destruct (m <? n); auto|]. rewrite nth_firstn.
  destruct (Z.ltb_spec m n), (Nat.ltb_spec (Z.to_nat m) (Z.to_nat n)); auto; lia.
Qed.
Lemma closefrom_count t n : (open_count (closefrom n t) <= Z.to_nat n)%nat.
Proof.
  unfold closefrom. generalize (Z.to_nat n). intros k. revert t. induction k as [|k IH]; intros [|[x|] t]; cbn; try lia; specialize (IH t); lia.
Qed.
Lemma get_exec t n : get (exec t) n = match get t n with Some d => after_exec d | None => None end.
Proof.
  unfold get, exec. destruct (n <? 0); auto. generalize (Z.to_nat n). intros k. revert k.
  induction t as [|[d|] t IH]; intros [|k]; cbn; auto.
Qed.
Lemma get_close t n m : get (close n t) m = if (m =? n) then None else get t m.
Proof.
  unfold close. destruct (get t n) as [d|] eqn:G.
  - apply get_set. eapply get_pos; eauto.
  - destruct (Z.eqb_spec m n) as [->|]; auto.
Qed.

(** The pre-exec step. *)
Lemma policy_get limit reopen t d n : get t 4 = Some d -> (open_count t < limit)%nat ->
  get (policy_execve limit reopen t) n =
    if n =? 4 then (if reopen then Some (Desc (file d) false false) else after_exec d)
    else match get t n with Some e => after_exec e | None => None end.
Proof.
  intros G L. unfold policy_execve, PageMapPage. rewrite G. cbn [option_map]. destruct reopen.
  - destruct (open_ok limit (Desc (file d) false false) t L) as (t1 & y & E & Ey & Gy & Py & Gr & Fr & _).
    rewrite E. assert (Y : y <> 4) by (intros ->; congruence).
    rewrite get_exec, get_close. rewrite (get_dup2 y 4 t1 _ n Gy) by (auto; lia).
    destruct (Z.eqb_spec n 4) as [->|N]; [destruct (Z.eqb_spec 4 y); [congruence|]; reflexivity|].
    destruct (Z.eqb_spec n y) as [->|N2]; [rewrite Fr; auto|]. destruct Gr as [A B].
    destruct (get t1 n) as [e|] eqn:Q.
    + destruct (B n e Q) as [X|[X <-]]; [rewrite X; auto|].
      exfalso. clear -E Q X N2. unfold open_file in E. destruct (lowest t <? limit)%nat.
      * injection E as <- <-. rewrite get_set_nat in Q. destruct (Z.eqb_spec n (Z.of_nat (lowest t))); congruence.
      * injection E as <- <-. congruence.
    + destruct (get t n) as [e|] eqn:Q2; auto. apply A in Q2. congruence.
  - cbn [open_file]. unfold dup2. rewrite (get_neg t (-1)) by lia. unfold close. rewrite (get_neg t (-1)) by lia. rewrite get_exec.
    destruct (Z.eqb_spec n 4) as [->|N]; auto. rewrite G. auto.
Qed.

Lemma grows_get P t t' n d : grows P t t' -> get t n = Some d -> get t' n = Some d.
Proof. intros [A _]. auto. Qed.

Definition new_desc (p : passed) (lib : desc) (d : desc) : Prop :=
  d = inherit (p_shm p) \/ d = inherit (p_pagemap p) \/ d = inherit (p_sock p) \/ d = inherit (p_rpc p)
  \/ d = lib \/ d = inherit lib.

Lemma inherit_if (b : bool) d : inherit (if b then inherit d else d) = inherit d.
Proof. destruct b; reflexivity. Qed.

Lemma prepare_ok debug limit fuel pagemap lib h t p :
  host_has t pagemap h p -> room limit t -> (10 < fuel)%nat ->
  exists t5 t', prepare debug fuel limit pagemap (Some lib) h t = Ret (Ready t')
    /\ grows (new_desc p lib) t t5
    /\ (open_count t' <= 8)%nat
    /\ (forall n, get t' n =
          if n =? 3 then same_open (p_shm p)
          else if n =? 4 then same_open (p_pagemap p)
          else if n =? 5 then same_open (p_sock p)
          else if n =? 6 then same_open lib
          else if n =? 7 then same_open (p_rpc p)
          else if n <? 8 then get t5 n
          else None)
    /\ (forall n, 0 <= n < 8 -> get t5 n <> None)
    /\ (8 <= h_shm h -> pagemap < 8 -> get t5 (Z.of_nat (lowest t)) = Some (inherit (p_pagemap p))).
Proof.
  intros (Gs & Gp & Gr & Gk) R F0. unfold room in R. assert (F : (9 < fuel)%nat) by lia.
  assert (Wt : (weight t <= open_count t + 8)%nat) by (unfold weight; pose proof (holes_le t); lia).
  destruct (move_fd_ok debug limit fuel (h_shm h) t _ Gs F) as (t1 & y1 & E1 & Y1 & G1 & X1 & W1 & _ & _ & Id1); [lia|].
  pose proof (grows_get _ _ _ _ _ X1 Gp) as Gp1.
  destruct (move_fd_ok debug limit fuel pagemap t1 _ Gp1 F) as (t2 & y2 & E2 & Y2 & G2 & X2 & W2 & _); [lia|].
  pose proof (grows_get _ _ _ _ _ X2 (grows_get _ _ _ _ _ X1 Gk)) as Gk2.
  destruct (move_fd_ok debug limit fuel (h_sock h) t2 _ Gk2 F) as (t3 & y3 & E3 & Y3 & G3 & X3 & W3 & _); [lia|].
  pose proof (grows_get _ _ _ _ _ X3 (grows_get _ _ _ _ _ X2 (grows_get _ _ _ _ _ X1 Gr))) as Gr3.
  destruct (move_fd_ok debug limit fuel (h_rpc h) t3 _ Gr3 F) as (t4 & y4 & E4 & Y4 & G4 & X4 & W4 & _); [lia|].
  destruct (open_ok limit lib t4) as (t4' & y5 & E5 & Ly5 & G5 & P5 & X5 & _ & W5); [unfold weight in *; lia|].
  destruct (move_fd_ok debug limit fuel y5 t4' _ G5 F) as (t5 & y6 & E6 & Y6 & G6 & X6 & W6 & _); [lia|].
  assert (GG : grows (new_desc p lib) t t5).
  { eapply grows_trans; [|eapply grows_trans; [|eapply grows_trans; [|eapply grows_trans; [|eapply grows_trans]]]];
      (eapply grows_impl; [|eassumption]); unfold new_desc; intros d <-; tauto. }
  pose proof (grows_get _ _ _ _ _ X6 (grows_get _ _ _ _ _ X5 G4)) as K4.
  pose proof (grows_get _ _ _ _ _ X6 (grows_get _ _ _ _ _ X5 (grows_get _ _ _ _ _ X4 G3))) as K3.
  pose proof (grows_get _ _ _ _ _ X6 (grows_get _ _ _ _ _ X5 (grows_get _ _ _ _ _ X4 (grows_get _ _ _ _ _ X3 G2)))) as K2.
  pose proof (grows_get _ _ _ _ _ X6 (grows_get _ _ _ _ _ X5 (grows_get _ _ _ _ _ X4 (grows_get _ _ _ _ _ X3 (grows_get _ _ _ _ _ X2 G1))))) as K1.
  exists t5. eexists. split; [|split; [exact GG|split; [|split; [|split]]]].
  - unfold prepare. rewrite E1. cbn [obind]. rewrite E2. cbn [obind]. rewrite E3. cbn [obind]. rewrite E4. cbn [obind].
    rewrite E5. destruct (Z.ltb_spec y5 0); [lia|]. rewrite E6. cbn [obind]. reflexivity.
  - apply (closefrom_count _ 8).
  - intros n. set (a := dup2 y1 SharedMemRegion t5). set (b := dup2 y2 PageMapPage a). set (c := dup2 y3 FDSocket b).
    set (d := dup2 y6 MainLibrary c). set (e := dup2 y4 PageMapUpdates d).
    unfold SharedMemRegion, PageMapPage, FDSocket, MainLibrary, PageMapUpdates, OtherLibraries in *.
    assert (HA : forall m, get a m = if m =? 3 then same_open (p_shm p) else get t5 m).
    { intros m. unfold a. rewrite (get_dup2 _ _ _ _ m K1) by lia. rewrite inherit_if. reflexivity. }
    assert (HB : forall m, get b m = if m =? 4 then same_open (p_pagemap p) else get a m).
    { intros m. unfold b. rewrite (get_dup2 y2 4 a (if pagemap <? 8 then inherit (p_pagemap p) else p_pagemap p) m); try lia.
      - rewrite inherit_if. reflexivity.
      - rewrite HA. destruct (Z.eqb_spec y2 3); [lia|auto]. }
    assert (HC : forall m, get c m = if m =? 5 then same_open (p_sock p) else get b m).
    { intros m. unfold c. rewrite (get_dup2 y3 5 b (if h_sock h <? 8 then inherit (p_sock p) else p_sock p) m); try lia.
      - rewrite inherit_if. reflexivity.
      - rewrite HB, HA. destruct (Z.eqb_spec y3 4), (Z.eqb_spec y3 3); try lia; auto. }
    assert (HD : forall m, get d m = if m =? 6 then same_open lib else get c m).
    { intros m. unfold d. rewrite (get_dup2 y6 6 c (if y5 <? 8 then inherit lib else lib) m); try lia.
      - rewrite inherit_if. reflexivity.
      - rewrite HC, HB, HA. destruct (Z.eqb_spec y6 5), (Z.eqb_spec y6 4), (Z.eqb_spec y6 3); try lia; auto. }
    assert (HE : forall m, get e m = if m =? 7 then same_open (p_rpc p) else get d m).
    { intros m. unfold e. rewrite (get_dup2 y4 7 d (if h_rpc h <? 8 then inherit (p_rpc p) else p_rpc p) m); try lia.
      - rewrite inherit_if. reflexivity.
      - rewrite HD, HC, HB, HA.
        destruct (Z.eqb_spec y4 6), (Z.eqb_spec y4 5), (Z.eqb_spec y4 4), (Z.eqb_spec y4 3); try lia; auto. }
    rewrite get_closefrom by lia. rewrite HE, HD, HC, HB, HA.
    destruct (Z.eqb_spec n 3), (Z.eqb_spec n 4), (Z.eqb_spec n 5), (Z.eqb_spec n 6), (Z.eqb_spec n 7), (Z.ltb_spec n 8); try lia; subst; reflexivity.
  - change (filled t5). unfold move_fd in E6. destruct (debug && (y5 <? 0)); [discriminate|]. apply move_fills in E6; auto.
    destruct (Z.ltb_spec y5 8); [left; lia|right]. apply (filled_grows (eq lib) t4); auto. apply lowest_filled. lia.
  - intros A B. destruct (Id1 A) as [-> _].
    assert (Q : get t2 (Z.of_nat (lowest t)) = Some (inherit (p_pagemap p))).
    { pose proof (get_pos _ _ _ Gp) as PP. unfold move_fd in E2. destruct (Z.ltb_spec pagemap 0); [lia|]. rewrite andb_false_r in E2.
      destruct fuel as [|f]; [lia|]. cbn [move_loop] in E2. unfold OtherLibraries in E2. destruct (Z.ltb_spec pagemap 8); [|lia].
      unfold dup in E2. rewrite Gp in E2. cbn [option_map] in E2.
      destruct (open_ok limit (inherit (p_pagemap p)) t) as (t1' & y & Eo & Ey & Gy & Py & _ & _ & Wo); [lia|].
      rewrite Eo in E2. destruct (move_loop_ok limit f y t1' _ Gy) as (t2' & z & Em & _ & _ & Gm & _).
      - pose proof (holes_le t1'). lia.
      - destruct Wo as [(? & ? & ?)|(? & ? & ?)]; [lia|]. unfold weight in *. pose proof (holes_le t). lia.
      - rewrite Em in E2. injection E2 as <- <-. subst y. eapply grows_get; eauto. }
    eapply grows_get; [exact X6|]. eapply grows_get; [exact X5|]. eapply grows_get; [exact X4|]. eapply grows_get; [exact X3|]. exact Q.
Qed.

Lemma start_ok debug limit fuel pagemap lib reopen h t p :
  host_has t pagemap h p -> room limit t -> (10 < fuel)%nat ->
  exists t5 t', start_child debug fuel limit pagemap (Some lib) reopen h t = Ret (Started t' (Handles (-1) (-1) (-1)))
    /\ grows (new_desc p lib) t t5
    /\ (forall n, get t' n =
          if n =? 3 then same_open (p_shm p)
          else if n =? 4 then Some (Desc (file (p_pagemap p)) (if reopen then false else writable (p_pagemap p)) false)
          else if n =? 5 then same_open (p_sock p)
          else if n =? 6 then same_open lib
          else if n =? 7 then same_open (p_rpc p)
          else if n <? 8 then match get t5 n with Some d => after_exec d | None => None end
          else None)
    /\ (8 <= h_shm h -> pagemap < 8 -> get t5 (Z.of_nat (lowest t)) = Some (inherit (p_pagemap p))).
Proof.
  intros H R F. destruct (prepare_ok debug limit fuel pagemap lib h t p H R F) as (t5 & t' & E & G & OC & L & _ & X).
  exists t5, (policy_execve limit reopen t'). split; [unfold start_child; rewrite E; reflexivity|]. split; [exact G|]. split; [|exact X].
  intros n. assert (H4 : get t' 4 = same_open (p_pagemap p)) by (rewrite L; reflexivity). unfold room in R.
  unfold same_open in H4. rewrite (policy_get limit reopen _ _ n H4); [|lia]. rewrite L. cbn [file writable].
  destruct (Z.eqb_spec n 4) as [->|N4]; [destruct reopen; reflexivity|].
  destruct (Z.eqb_spec n 3) as [->|N3]; [reflexivity|]. destruct (Z.eqb_spec n 5) as [->|N5]; [reflexivity|].
  destruct (Z.eqb_spec n 6) as [->|N6]; [reflexivity|]. destruct (Z.eqb_spec n 7) as [->|N7]; [reflexivity|].
  destruct (Z.ltb_spec n 8); reflexivity.
Qed.
