(** Invariant behind the Handle theorems: each open number is referred to exactly
    once, counting live Handles and raw numbers in the program's hands. *)
From Coq Require Import List ZArith Bool Lia Arith.
From Verif Require Import HandleModel HandleSpec.
Import ListNotations.
Open Scope Z_scope.

Definition b2n (b : bool) : nat := if b then 1%nat else 0%nat.
Definition is_num (n : Z) (o : option Z) : bool := match o with Some m => m =? n | None => false end.
Fixpoint ocnt (n : Z) (l : list (option Z)) : nat :=
  match l with [] => 0 | o :: r => b2n (is_num n o) + ocnt n r end.
Fixpoint hcnt (n : Z) (l : list Z) : nat :=
  match l with [] => 0 | m :: r => b2n (m =? n) + hcnt n r end.
Fixpoint kcnt (u : nat) (k : list (Z * nat)) : nat :=
  match k with [] => 0 | (_, v) :: r => b2n (Nat.eqb v u) + kcnt u r end.
Definition isopen (n : Z) (s : state) : nat := match lookup n (kern s) with Some _ => 1%nat | None => 0%nat end.

Lemma ocnt_app n a b : ocnt n (a ++ b) = (ocnt n a + ocnt n b)%nat.
Proof. induction a; cbn; lia. Qed.
Lemma hcnt_app n a b : hcnt n (a ++ b) = (hcnt n a + hcnt n b)%nat.
Proof. induction a; cbn; lia. Qed.
Lemma kcnt_app n a b : kcnt n (a ++ b) = (kcnt n a + kcnt n b)%nat.
Proof. induction a as [|[? ?] a IH]; cbn; lia. Qed.
Lemma ocnt_upd n i x l : (i < length l)%nat ->
  (ocnt n (upd i x l) + b2n (is_num n (nth i l None)) = ocnt n l + b2n (is_num n x))%nat.
Proof.
  revert i. induction l as [|y l IH]; intros i H; cbn in H; [lia|].
  destruct i; cbn; [lia|]. specialize (IH i ltac:(lia)). lia.
Qed.
Lemma upd_length i x l : length (upd i x l) = length l.
Proof. revert i. induction l; destruct i; cbn; auto. Qed.
Lemma upd_nth i x l j : nth j (upd i x l) None = if Nat.eqb i j && (i <? length l)%nat then x else nth j l None.
Proof.
  revert i j. induction l as [|y l IH]; intros [|i] [|j]; cbn; auto.
  - rewrite andb_false_r. auto.
  - rewrite IH. reflexivity.
Qed.
Lemma live_lt s i n : fd s i = Some n -> (i < length (objs s))%nat.
Proof.
  intros H. unfold fd in H. destruct (Nat.lt_ge_cases i (length (objs s))); auto.
  rewrite nth_overflow in H by auto. discriminate.
Qed.
Lemma hcnt_remove n m h : In m h -> (hcnt n (remove1 m h) + b2n (m =? n)%Z = hcnt n h)%nat.
Proof.
  induction h as [|x h IH]; cbn; [tauto|]. intros H.
  destruct (Z.eqb_spec x m) as [->|N]; [lia|]. destruct H as [->|H]; [lia|]. cbn. specialize (IH H). lia.
Qed.
Lemma remove1_absent m h : ~ In m h -> remove1 m h = h.
Proof. induction h as [|x h IH]; cbn; auto. intros H. destruct (Z.eqb_spec x m); [tauto|]. rewrite IH; auto. Qed.
Lemma remove1_In m h x : In x (remove1 m h) -> In x h.
Proof. induction h as [|y h IH]; cbn; auto. destruct (y =? m); cbn; auto. intros [->|H]; auto. Qed.
Lemma hcnt_In n h : In n h -> (1 <= hcnt n h)%nat.
Proof. induction h as [|x h IH]; cbn; [tauto|]. intros [->|H]; [rewrite Z.eqb_refl; cbn; lia|]. specialize (IH H). lia. Qed.
Lemma ocnt_ge n i l : nth i l None = Some n -> (1 <= ocnt n l)%nat.
Proof.
  revert i. induction l as [|y l IH]; intros [|i] H; cbn in *; try discriminate.
  - subst. cbn. rewrite Z.eqb_refl. cbn. lia.
  - specialize (IH i H). lia.
Qed.

Lemma lookup_In n k u : lookup n k = Some u -> In (n, u) k.
Proof.
  induction k as [|[m v] k IH]; cbn; [discriminate|]. destruct (Z.eqb_spec m n) as [->|N].
  - intros E; injection E as ->; auto.
  - auto.
Qed.
Lemma lookup_nodup n u k : NoDup (map fst k) -> In (n, u) k -> lookup n k = Some u.
Proof.
  induction k as [|[m v] k IH]; cbn; [tauto|]. intros N. inversion N as [|? ? A B]; subst.
  intros [E|H].
  - injection E as -> ->. rewrite Z.eqb_refl. auto.
  - destruct (Z.eqb_spec m n) as [->|Q]; auto. exfalso. apply A. apply (in_map fst) in H. auto.
Qed.
Lemma lookup_None n k : lookup n k = None <-> ~ In n (map fst k).
Proof.
  induction k as [|[m v] k IH]; cbn; [tauto|]. destruct (Z.eqb_spec m n) as [->|N].
  - split; [discriminate|tauto].
  - rewrite IH. tauto.
Qed.
Lemma drop_fst n k : incl (map fst (drop n k)) (map fst k).
Proof.
  induction k as [|[m v] k IH]; cbn; [apply incl_refl|]. destruct (m =? n); cbn.
  - apply incl_tl, incl_refl.
  - intros x [->|H]; [left; auto|right; apply IH; auto].
Qed.
Lemma drop_nodup n k : NoDup (map fst k) -> NoDup (map fst (drop n k)).
Proof.
  induction k as [|[m v] k IH]; cbn; auto. intros N. inversion N as [|? ? A B]; subst.
  destruct (m =? n); cbn; auto. constructor; auto. intros X. apply A. eapply drop_fst; eauto.
Qed.
Lemma lookup_drop n m k : NoDup (map fst k) -> lookup m (drop n k) = if m =? n then None else lookup m k.
Proof.
  induction k as [|[x v] k IH]; cbn; [destruct (m =? n); auto|]. intros N. inversion N as [|? ? A B]; subst.
  destruct (Z.eqb_spec x n) as [->|Q].
  - destruct (Z.eqb_spec m n) as [->|Q2]; [apply lookup_None; auto|].
    destruct (Z.eqb_spec n m); [congruence|auto].
  - cbn. rewrite IH by auto. destruct (Z.eqb_spec x m) as [->|Q2]; auto.
    destruct (Z.eqb_spec m n); [congruence|auto].
Qed.
Lemma kcnt_drop n u k w : NoDup (map fst k) -> lookup n k = Some w -> (kcnt u (drop n k) + b2n (Nat.eqb w u) = kcnt u k)%nat.
Proof.
  induction k as [|[x v] k IH]; cbn; [discriminate|]. intros N. inversion N as [|? ? A B]; subst.
  destruct (x =? n).
  - intros E; injection E as ->. lia.
  - intros E. cbn. specialize (IH B E). lia.
Qed.
Lemma lookup_app n k m v : lookup n (k ++ [(m, v)]) = match lookup n k with Some u => Some u | None => if m =? n then Some v else None end.
Proof. induction k as [|[x w] k IH]; cbn; auto. destruct (x =? n); auto. Qed.
Lemma drop_snd n k x : In x (map snd (drop n k)) -> In x (map snd k).
Proof. induction k as [|[m v] k IH]; cbn; auto. destruct (m =? n); cbn; auto. intros [->|H]; auto. Qed.

Definition closes (s : state) (u : nat) : nat := length (filter (is_close u) (trace s)).

Record Inv (h : list Z) (s : state) : Prop := {
  i_nodup : NoDup (map fst (kern s));
  i_pos : forall n u, In (n, u) (kern s) -> 0 <= n;
  i_held : forall n, In n h -> 0 <= n;
  i_one : forall n, 0 <= n -> (ocnt n (objs s) + hcnt n h = isopen n s)%nat;
  i_ids : forall u, (closes s u + kcnt u (kern s) = b2n (Nat.ltb u (next s)))%nat;
  i_valid : forall w n u, In (TClose w n u) (trace s) -> u <> None }.

Lemma Inv_init : Inv [] init.
Proof.
  constructor; cbn; try tauto; auto; try constructor.
Qed.

(** An entry is open if some handle or the program refers to it. *)
Lemma owned_open h s i n : Inv h s -> fd s i = Some n -> 0 <= n -> lookup n (kern s) <> None.
Proof.
  intros I F P X. pose proof (i_one _ _ I n P) as E. unfold isopen in E. rewrite X in E.
  pose proof (ocnt_ge n i (objs s) F). lia.
Qed.
Lemma held_open h s n : Inv h s -> In n h -> lookup n (kern s) <> None.
Proof.
  intros I F X. pose proof (i_one _ _ I n (i_held _ _ I n F)) as E. unfold isopen in E. rewrite X in E.
  pose proof (hcnt_In n h F). lia.
Qed.

(** Closing an open number [n] while nobody refers to it any more keeps the
    invariant. *)
Lemma Inv_close h s h' os w n : Inv h s -> lookup n (kern s) <> None ->
  (forall m, In m h' -> 0 <= m) ->
  (forall m, 0 <= m -> (ocnt m os + hcnt m h' + b2n (n =? m)%Z = ocnt m (objs s) + hcnt m h)%nat) ->
  Inv h' (St os (drop n (kern s)) (next s) (trace s ++ [TClose w n (lookup n (kern s))])).
Proof.
  intros I L P C. constructor; cbn.
  - apply drop_nodup, I.
  - intros m u H. apply (i_pos _ _ I m u). clear -H.
    induction (kern s) as [|[x v] k IH]; cbn in *; auto. destruct (x =? n); cbn in *; auto. destruct H; auto.
  - auto.
  - intros m Hm. specialize (C m Hm). pose proof (i_one _ _ I m Hm) as E. unfold isopen in *. cbn.
    rewrite lookup_drop by apply I. rewrite (Z.eqb_sym n m) in C. destruct (Z.eqb_spec m n) as [Q|N]; cbn in C.
    + rewrite Q in *. destruct (lookup n (kern s)); [lia|congruence].
    + lia.
  - intros u. unfold closes. cbn. rewrite filter_app, app_length. pose proof (i_ids _ _ I u) as E. unfold closes in E.
    destruct (lookup n (kern s)) as [v|] eqn:Ev; [|congruence].
    pose proof (kcnt_drop n u (kern s) v (i_nodup _ _ I) Ev). cbn. destruct (Nat.eqb v u); cbn in *; lia.
  - intros w' m u H. apply in_app_or in H. destruct H as [H|[H|[]]]; [eapply i_valid; eauto|].
    injection H as _ <- <-. auto.
Qed.
(** Moving references around without touching the kernel keeps it too. *)
Lemma Inv_move h s h' os : Inv h s -> (forall m, In m h' -> 0 <= m) ->
  (forall m, 0 <= m -> (ocnt m os + hcnt m h' = ocnt m (objs s) + hcnt m h)%nat) ->
  Inv h' (St os (kern s) (next s) (trace s)).
Proof.
  intros I P C. constructor; cbn; try apply I; auto.
  intros m Hm. rewrite (C m Hm). apply (i_one _ _ I m Hm).
Qed.

Lemma is_valid_ok d h s i n : Inv h s -> fd s i = Some n -> is_valid d n s = Some (0 <=? n).
Proof.
  intros I F. unfold is_valid. destruct (Z.ltb_spec n 0) as [N|N].
  - rewrite andb_false_r. auto.
  - pose proof (owned_open h s i n I F N). destruct (lookup n (kern s)); [|congruence]. rewrite andb_false_r. auto.
Qed.

Lemma is_num_neg m n : 0 <= m -> n < 0 -> is_num m (Some n) = false.
Proof. intros. cbn. apply Z.eqb_neq. lia. Qed.

(** reset on a live object followed by any change of references that accounts
    for the lost one. *)
Lemma Inv_reset d h s i n new h' : Inv h s -> fd s i = Some n ->
  (forall m, In m h' -> 0 <= m) ->
  (forall m, 0 <= m -> (b2n (is_num m (Some new)) + hcnt m h' = hcnt m h)%nat) ->
  exists s', reset d i n new s = Some s' /\ Inv h' s' /\ next s' = next s.
Proof.
  intros I F P C. unfold reset. rewrite (is_valid_ok d h s i n I F). eexists. split; [reflexivity|].
  pose proof (live_lt _ _ _ F) as L.
  destruct (Z.leb_spec 0 n) as [N|N]; cbn; (split; [|reflexivity]).
  - apply (Inv_close h s h' (upd i (Some new) (objs s)) (Some i) n); auto.
    + eapply owned_open; eauto.
    + intros m Hm. specialize (C m Hm). pose proof (ocnt_upd m i (Some new) (objs s) L) as U.
      unfold fd in F. rewrite F in U. cbn [is_num] in *. lia.
  - apply (Inv_move h s h' (upd i (Some new) (objs s))); auto.
    intros m Hm. specialize (C m Hm). pose proof (ocnt_upd m i (Some new) (objs s) L) as U.
    unfold fd in F. rewrite F in U. rewrite (is_num_neg m n) in U by auto. cbn [b2n] in U. lia.
Qed.

(** One step of a program that owns what it passes. *)
Lemma Inv_step d h s o s' r : Inv h s -> possible o s -> owns_argument h o -> step d o s = (s', r) ->
  Inv (held_step h (o, r)) s' /\ r <> RAbort.
Proof.
  intros I P A E. destruct o as [n|n| |n|j|i j|i n|i|i|i]; cbn in E, P, A.
  - (* Open *) injection E as <- <-. split; [|discriminate]. destruct P as [P Q]. cbn.
    unfold numbers. destruct (Z.ltb_spec n 0); [lia|].
    constructor; cbn.
    + rewrite map_app. cbn. apply lookup_None in Q.
      pose proof (i_nodup _ _ I) as N. clear -N Q.
      induction (map fst (kern s)) as [|x k IH]; cbn; [constructor; [tauto|constructor]|].
      inversion N; subst. constructor.
      * rewrite in_app_iff. cbn. intros [X|[X|[]]]; [tauto|]. apply Q. left. auto.
      * apply IH; auto. intros X. apply Q. right. auto.
    + intros m u X. apply in_app_or in X. destruct X as [X|[X|[]]]; [eapply i_pos; eauto|]. injection X as -> _. auto.
    + intros m [->|X]; auto. eapply i_held; eauto.
    + intros m Hm. pose proof (i_one _ _ I m Hm) as O. unfold isopen in *. cbn. rewrite lookup_app.
      destruct (Z.eqb_spec n m) as [->|N]; cbn.
      * rewrite Q in *. lia.
      * destruct (lookup m (kern s)); lia.
    + intros u. pose proof (i_ids _ _ I u) as O. unfold closes in *. cbn [kern trace next]. rewrite kcnt_app. cbn [kcnt].
      destruct (Nat.eqb_spec (next s) u) as [Q2|N]; destruct (Nat.ltb_spec u (next s)) as [L|L];
        destruct (Nat.leb_spec u (next s)); cbn [b2n] in *; lia.
    + apply I.
  - (* RawClose *) injection E as <- <-. split; [|discriminate]. cbn.
    apply (Inv_close h s (remove1 n h) (objs s) None n); auto.
    + eapply held_open; eauto.
    + intros m X. apply remove1_In in X. eapply i_held; eauto.
    + intros m Hm. pose proof (hcnt_remove m n h A). lia.
  - (* Default *) injection E as <- <-. split; [|discriminate]. cbn.
    apply (Inv_move h s h); auto; [apply I|].
    intros m Hm. rewrite ocnt_app. cbn [ocnt]. rewrite is_num_neg by lia. cbn. lia.
  - (* Construct *) injection E as <- <-. split; [|discriminate]. cbn [held_step].
    apply (Inv_move h s (remove1 n h)); auto.
    + intros m X. apply remove1_In in X. eapply i_held; eauto.
    + intros m Hm. rewrite ocnt_app. cbn [ocnt]. destruct A as [A|A].
      * rewrite remove1_absent; [|intros X; apply (i_held _ _ I) in X; lia]. rewrite is_num_neg by lia. cbn. lia.
      * pose proof (hcnt_remove m n h A). cbn [is_num]. lia.
  - (* MoveCtor *) unfold live in P. destruct (fd s j) as [n|] eqn:F; [|congruence]. injection E as <- <-. split; [|discriminate].
    cbn. apply (Inv_move h s h); auto; [apply I|].
    intros m Hm. rewrite ocnt_app. cbn [ocnt]. pose proof (live_lt _ _ _ F) as L.
    pose proof (ocnt_upd m j (Some (-1)%Z) (objs s) L) as U. unfold fd in F. rewrite F in U.
    rewrite (is_num_neg m (-1)) in U by lia. cbn [b2n] in U. lia.
  - (* MoveAssign *) unfold live in P. destruct P as [P1 P2].
    destruct (fd s i) as [n|] eqn:Fi; [|congruence]. destruct (fd s j) as [m|] eqn:Fj; [|congruence].
    unfold reset in E. rewrite (is_valid_ok d h s i n I Fi) in E. injection E as <- <-. split; [|discriminate].
    pose proof (live_lt _ _ _ Fi) as Li. pose proof (live_lt _ _ _ Fj) as Lj.
    assert (C : forall x, 0 <= x ->
        (ocnt x (upd j (Some (-1)%Z) (upd i (Some m) (objs s))) + b2n (is_num x (Some n)) = ocnt x (objs s))%nat).
    { intros x Hx. pose proof (ocnt_upd x i (Some m) (objs s) Li) as U1.
      pose proof (ocnt_upd x j (Some (-1)%Z) (upd i (Some m) (objs s))) as U2. rewrite upd_length in U2. specialize (U2 Lj).
      assert (nth j (upd i (Some m) (objs s)) None = Some m) as Q.
      { rewrite upd_nth. apply Nat.ltb_lt in Li. rewrite Li. destruct (Nat.eqb_spec i j); auto. }
      rewrite Q in U2. unfold fd in Fi. rewrite Fi in U1. rewrite (is_num_neg x (-1)) in U2 by lia. cbn [b2n] in U2. lia. }
    cbn [held_step]. destruct (Z.leb_spec 0 n) as [N|N]; cbn.
    + apply (Inv_close h s h); auto; [eapply owned_open; eauto|apply I|].
      intros x Hx. specialize (C x Hx). cbn [is_num] in C. cbn [put objs close]. lia.
    + apply (Inv_move h s h); auto; [apply I|].
      intros x Hx. specialize (C x Hx). rewrite is_num_neg in C by lia. cbn [b2n] in C. cbn [put objs close]. lia.
  - (* AssignRaw *) unfold live in P. destruct (fd s i) as [m|] eqn:F; [|congruence].
    destruct (Inv_reset d h s i m n (remove1 n h) I F) as (s1 & E1 & I1 & _).
    + intros x X. apply remove1_In in X. eapply i_held; eauto.
    + intros x Hx. destruct A as [A|A].
      * rewrite remove1_absent; [|intros X; apply (i_held _ _ I) in X; lia]. rewrite is_num_neg by lia. reflexivity.
      * pose proof (hcnt_remove x n h A). cbn [is_num]. lia.
    + rewrite E1 in E. injection E as <- <-. split; [exact I1|discriminate].
  - (* Take *) unfold live in P. destruct (fd s i) as [n|] eqn:F; [|congruence]. injection E as <- <-. split; [|discriminate].
    cbn [held_step]. apply (Inv_move h s (numbers n ++ h)); auto.
    + intros m X. unfold numbers in X. destruct (Z.ltb_spec n 0); [|destruct X as [->|X]; [lia|]]; eapply i_held; eauto.
    + intros m Hm. pose proof (live_lt _ _ _ F) as L. pose proof (ocnt_upd m i (Some (-1)%Z) (objs s) L) as U.
      unfold fd in F. rewrite F in U. rewrite (is_num_neg m (-1)) in U by lia. rewrite hcnt_app. unfold numbers.
      destruct (Z.ltb_spec n 0).
      * rewrite is_num_neg in U by lia. cbn [b2n hcnt] in *. lia.
      * cbn [b2n hcnt is_num] in *. lia.
  - (* IsValid *) unfold live in P. destruct (fd s i) as [n|] eqn:F; [|congruence].
    rewrite (is_valid_ok d h s i n I F) in E. injection E as <- <-. split; [exact I|discriminate].
  - (* Destroy *) unfold live in P. destruct (fd s i) as [n|] eqn:F; [|congruence].
    destruct (Inv_reset d h s i n (-1) h I F) as (s1 & E1 & I1 & _); [apply I| |].
    + intros x Hx. rewrite is_num_neg by lia. reflexivity.
    + rewrite E1 in E. injection E as <- <-. split; [|discriminate]. cbn [held_step].
      assert (F1 : nth i (objs s1) None = Some (-1)%Z).
      { unfold reset in E1. destruct (is_valid d n s) as [b|]; [|discriminate]. injection E1 as <-.
        pose proof (live_lt _ _ _ F) as L. apply Nat.ltb_lt in L. destruct b; cbn; rewrite upd_nth, Nat.eqb_refl, L; auto. }
      apply (Inv_move h s1 h); auto; [apply I|].
      intros x Hx. assert (L : (i < length (objs s1))%nat) by (apply (live_lt s1 i (-1)); exact F1).
      pose proof (ocnt_upd x i None (objs s1) L) as U. rewrite F1 in U. rewrite is_num_neg in U by lia. cbn [b2n is_num] in U. lia.
Qed.

Lemma held_snoc es e : held (es ++ [e]) = held_step (held es) e.
Proof. unfold held. rewrite fold_left_app. reflexivity. Qed.
Lemma disciplined_snoc es e : disciplined (es ++ [e]) -> disciplined es /\ owns_argument (held es) (fst e).
Proof.
  intros D. split.
  - intros a x b E. apply (D a x (b ++ [e])). rewrite E, <- app_assoc. reflexivity.
  - apply (D es e []). reflexivity.
Qed.
Lemma runs_Inv d es s : runs d es s -> disciplined es -> Inv (held es) s /\ (forall o, ~ In (o, RAbort) es).
Proof.
  intros R. induction R as [|es s o s' r R IH P E]; intros D; [split; [apply Inv_init|cbn; auto]|].
  apply disciplined_snoc in D. destruct D as [D A]. destruct (IH D) as [I N].
  destruct (Inv_step d _ _ _ _ _ I P A E) as [I1 N1]. rewrite held_snoc. split; auto.
  intros o' X. apply in_app_or in X. destruct X as [X|[X|[]]]; [eapply N; eauto|]. injection X as -> ->. auto.
Qed.
