(** Invariants of the semaphore model. *)
From Coq Require Import List ZArith Bool Arith Lia.
From Verif Require Import SemModel SemSpec.
Import ListNotations.
Local Open Scope nat_scope.

Definition cnt (p : tpc -> bool) (l : list tpc) : nat := length (filter p l).
Definition b2n (b : bool) : nat := if b then 1 else 0.

Lemma cnt_upd p l i x y : nth_error l i = Some x ->
  cnt p (upd l i y) + b2n (p x) = cnt p l + b2n (p y).
Proof.
  revert i. induction l as [|a l IH]; intros [|i] H; simpl in *; try discriminate.
  - injection H as ->. unfold cnt. simpl. destruct (p x), (p y); simpl; lia.
  - specialize (IH i H). unfold cnt in *. simpl. destruct (p a); simpl; lia.
Qed.

Lemma nth_upd_eq {A} (l : list A) i x y : nth_error l i = Some x ->
  nth_error (upd l i y) i = Some y.
Proof.
  revert i. induction l as [|a l IH]; intros [|i] H; simpl in *; try discriminate; auto.
Qed.

Lemma nth_upd_neq {A} (l : list A) i j y : i <> j ->
  nth_error (upd l i y) j = nth_error l j.
Proof.
  revert i j. induction l as [|a l IH]; intros [|i] [|j] H; simpl; auto; try congruence.
Qed.

Lemma nth_upd {A} (l : list A) i j x y z : nth_error l i = Some x ->
  nth_error (upd l i y) j = Some z -> (j = i /\ z = y) \/ (j <> i /\ nth_error l j = Some z).
Proof.
  intros Hi H. destruct (Nat.eq_dec i j) as [<-|E].
  - rewrite (nth_upd_eq _ _ _ _ Hi) in H. injection H as <-. auto.
  - rewrite nth_upd_neq in H by auto. right; split; auto.
Qed.

Lemma count_snoc p h e : count p (h ++ [e]) = count p h + b2n (p e).
Proof.
  unfold count. rewrite filter_app, app_length. simpl. destruct (p e); reflexivity.
Qed.

Lemma clean_snoc h e : clean (h ++ [e]) -> clean h /\ is_fault e = false.
Proof.
  intros H. split.
  - intros x Hx. apply H. apply in_or_app; auto.
  - apply H. apply in_or_app; right; left; reflexivity.
Qed.

Definition pStart p := match p with WkStart => true | _ => false end.
Definition pFetched p := match p with WkFetched => true | _ => false end.
Definition pDone p := match p with WkDone => true | _ => false end.
Definition pTrue p := match p with RetWith true => true | _ => false end.

Definition sane (p : tpc) : Prop :=
  match p with Try1c f | Try2c f => f = 1%Z | Dead => False | _ => True end.

Record J (h : list event) (s : sem) : Prop := {
  j_flag : flag s = 0%Z \/ flag s = 1%Z;
  j_calls : wakes_called h =
    wakes_returned h + cnt pStart (pcs s) + cnt pFetched (pcs s) + cnt pDone (pcs s);
  j_tokens : Z.to_nat (flag s) + waits_true h + cnt pTrue (pcs s) + cnt pStart (pcs s)
    = wakes_called h;
  j_sane : forall t p, pc_of s t = Some p -> sane p;
  j_sleep : forall t, flag s = 1%Z -> pc_of s t = Some Sleeping ->
    exists k, pc_of s k = Some WkFetched \/ pc_of s k = Some Try2 \/ pc_of s k = Some (Try2c 1)
}.

Lemma cnt_repeat_idle p n : p Idle = false -> cnt p (repeat Idle n) = 0.
Proof. intros H. unfold cnt. induction n; simpl; auto. rewrite H; auto. Qed.

Lemma J_init n : J [] (init n).
Proof.
  assert (E : forall t p, nth_error (repeat Idle n) t = Some p -> p = Idle).
  { intros t p H. apply nth_error_In, repeat_spec in H. exact H. }
  constructor; simpl.
  - auto.
  - rewrite !cnt_repeat_idle by reflexivity. reflexivity.
  - rewrite !cnt_repeat_idle by reflexivity. reflexivity.
  - intros t p H. apply E in H. subst. exact I.
  - intros t H. discriminate.
Qed.

Lemma to_int_1 : to_int (0 + 1) = 1%Z.
Proof. reflexivity. Qed.

Lemma after_load_cases d v c no : v = 0%Z \/ v = 1%Z ->
  after_load d v c no = if Z.eqb v 1 then c 1%Z else no.
Proof. intros [->| ->]; unfold after_load; simpl; destruct d; reflexivity. Qed.

Ltac cu H y :=
  let G p := (pose proof (cnt_upd p _ _ _ y H)) in
  pose proof (cnt_upd pStart _ _ _ y H);
  pose proof (cnt_upd pFetched _ _ _ y H);
  pose proof (cnt_upd pDone _ _ _ y H);
  pose proof (cnt_upd pTrue _ _ _ y H).

Lemma sleeping_dec l : In Sleeping l \/ ~ In Sleeping l.
Proof.
  induction l as [|a l IH]; [right; intros []|].
  destruct IH; [left; right; auto|].
  destruct a; try (right; intros [E|E]; [discriminate|auto]). left; left; auto.
Qed.

Lemma witness_upd l t x y :
  nth_error l t = Some x ->
  (x <> WkFetched /\ x <> Try2 /\ x <> Try2c 1) ->
  (exists k, nth_error l k = Some WkFetched \/ nth_error l k = Some Try2 \/ nth_error l k = Some (Try2c 1)) ->
  exists k, nth_error (upd l t y) k = Some WkFetched \/ nth_error (upd l t y) k = Some Try2
    \/ nth_error (upd l t y) k = Some (Try2c 1).
Proof.
  intros H [N1 [N2 N3]] [k K]. exists k.
  destruct (Nat.eq_dec t k) as [<-|E].
  - destruct K as [K|[K|K]]; rewrite H in K; injection K as ->; congruence.
  - rewrite nth_upd_neq by auto. exact K.
Qed.

Lemma J_step d h s e s' : J h s -> step d s e s' -> is_fault e = false -> J (h ++ [e]) s'.
Proof.
  intros [Jf Jc Jt Js Jl] Hs Hf. unfold wakes_called, wakes_returned, waits_true in *.
  assert (SIMPLE : forall t x y e, pc_of s t = Some x -> sane y ->
     (x <> WkFetched /\ x <> Try2 /\ x <> Try2c 1) ->
     (y = Sleeping -> flag s = 0%Z) ->
     b2n (is_call_wake e) + b2n (pStart x) + b2n (pFetched x) + b2n (pDone x) =
     b2n (is_ret_wake e) + b2n (pStart y) + b2n (pFetched y) + b2n (pDone y) ->
     b2n (is_call_wake e) + b2n (pStart x) + b2n (pTrue x) =
     b2n (is_true_ret e) + b2n (pStart y) + b2n (pTrue y) ->
     J (h ++ [e]) (goto s t y)).
  { clear Hs Hf. intros t x y e0 Hx Hy Hn Hsl E1 E2.
    unfold pc_of in Hx. cu Hx y.
    constructor; unfold wakes_called, wakes_returned, waits_true; rewrite ?count_snoc; simpl.
    - exact Jf.
    - lia.
    - lia.
    - intros k p Hk. unfold pc_of in Hk; simpl in Hk.
      destruct (nth_upd _ _ _ _ _ _ Hx Hk) as [[-> ->]|[_ Hk']]; auto. apply (Js k). exact Hk'.
    - intros k Hfl Hk. unfold pc_of in *; simpl in *.
      destruct (nth_upd _ _ _ _ _ _ Hx Hk) as [[-> E]|[_ Hk']].
      + rewrite Hsl in Hfl by auto. discriminate.
      + apply (witness_upd _ _ _ _ Hx Hn). apply (Jl k); auto. }
  inversion Hs; subst; simpl in Hf; try discriminate; clear Hs.
  - eapply SIMPLE; eauto; simpl; auto; try discriminate; try lia.
    repeat split; discriminate.
  - (* fetch *)
    cu H WkFetched. rewrite H0 in *. rewrite to_int_1.
    constructor; unfold wakes_called, wakes_returned, waits_true; rewrite ?count_snoc; simpl in *.
    + auto.
    + lia.
    + unfold Pos.to_nat; simpl. lia.
    + intros k p Hk. unfold pc_of in Hk; simpl in Hk.
      destruct (nth_upd _ _ _ _ _ _ H Hk) as [[-> ->]|[_ Hk']]; simpl; auto. apply (Js k). exact Hk'.
    + intros k _ Hk. exists t. left. unfold pc_of; simpl. eapply nth_upd_eq; eauto.
  - (* futex wake *)
    assert (Ne : w <> t) by (intros ->; congruence).
    unfold pc_of in *.
    assert (Ht : nth_error (upd (pcs s) w Try2) t = Some WkFetched)
      by (rewrite nth_upd_neq; auto).
    cu H0 Try2. cu Ht WkDone.
    constructor; unfold wakes_called, wakes_returned, waits_true; rewrite ?count_snoc; simpl in *.
    + exact Jf.
    + lia.
    + lia.
    + intros k p Hk. unfold pc_of in Hk; simpl in Hk.
      destruct (nth_upd _ _ _ _ _ _ Ht Hk) as [[-> ->]|[_ Hk']]; simpl; auto.
      destruct (nth_upd _ _ _ _ _ _ H0 Hk') as [[-> ->]|[_ Hk'']]; simpl; auto.
      apply (Js k). exact Hk''.
    + intros k _ _. exists w. right; left. unfold pc_of; simpl.
      rewrite nth_upd_neq by auto. eapply nth_upd_eq; eauto.
  - (* nobody sleeps *)
    unfold pc_of in *. cu H WkDone.
    constructor; unfold wakes_called, wakes_returned, waits_true; rewrite ?count_snoc; simpl in *.
    + exact Jf.
    + lia.
    + lia.
    + intros k p Hk. unfold pc_of in Hk; simpl in Hk.
      destruct (nth_upd _ _ _ _ _ _ H Hk) as [[-> ->]|[_ Hk']]; simpl; auto. apply (Js k). exact Hk'.
    + intros k _ Hk. exfalso. unfold pc_of in Hk; simpl in Hk.
      destruct (nth_upd _ _ _ _ _ _ H Hk) as [[-> E]|[_ Hk']]; [discriminate|].
      apply H0. eapply nth_error_In; eauto.
  - eapply SIMPLE; eauto; simpl; auto; try discriminate; try lia.
    repeat split; discriminate.
  - eapply SIMPLE; eauto; simpl; auto; try discriminate; try lia.
    repeat split; discriminate.
  - (* load 1 *)
    rewrite after_load_cases by auto. apply (SIMPLE _ Try1); auto.
    + destruct (Z.eqb _ _); simpl; auto.
    + repeat split; discriminate.
    + destruct (Z.eqb _ _); discriminate.
    + destruct (Z.eqb _ _); reflexivity.
    + destruct (Z.eqb _ _); reflexivity.
  - (* cas 1 *)
    pose proof (Js _ _ H) as E; simpl in E.
    unfold pc_of in *. cu H (RetWith true).
    constructor; unfold wakes_called, wakes_returned, waits_true; rewrite ?count_snoc; simpl in *.
    + left. lia.
    + lia.
    + rewrite E in *. unfold Pos.to_nat in *; simpl in *. lia.
    + intros k p Hk. unfold pc_of in Hk; simpl in Hk.
      destruct (nth_upd _ _ _ _ _ _ H Hk) as [[-> ->]|[_ Hk']]; simpl; auto. apply (Js k). exact Hk'.
    + intros k Hk. lia.
  - eapply SIMPLE; eauto; simpl; auto; try discriminate; try lia.
    repeat split; discriminate.
  - eapply SIMPLE; eauto; simpl; auto; try discriminate; try lia.
    repeat split; discriminate.
  - eapply SIMPLE; eauto; simpl; auto; try discriminate; try lia.
    repeat split; discriminate.
  - eapply SIMPLE; eauto; simpl; auto; try discriminate; try lia.
    repeat split; discriminate.
  - eapply SIMPLE; eauto; simpl; auto; try discriminate; try lia.
    repeat split; discriminate.
  - (* load 2 *)
    rewrite after_load_cases by auto. unfold pc_of in *.
    destruct (Z.eqb_spec (flag s) 1) as [E|E].
    + cu H (Try2c 1).
      constructor; unfold wakes_called, wakes_returned, waits_true; rewrite ?count_snoc; simpl in *.
      * exact Jf.
      * lia.
      * lia.
      * intros k p Hk. unfold pc_of in Hk; simpl in Hk.
        destruct (nth_upd _ _ _ _ _ _ H Hk) as [[-> ->]|[_ Hk']]; simpl; auto. apply (Js k). exact Hk'.
      * intros k _ _. exists t. right; right. unfold pc_of; simpl. eapply nth_upd_eq; eauto.
    + cu H (RetWith false).
      constructor; unfold wakes_called, wakes_returned, waits_true; rewrite ?count_snoc; simpl in *.
      * exact Jf.
      * lia.
      * lia.
      * intros k p Hk. unfold pc_of in Hk; simpl in Hk.
        destruct (nth_upd _ _ _ _ _ _ H Hk) as [[-> ->]|[_ Hk']]; simpl; auto. apply (Js k). exact Hk'.
      * intros k Hk. congruence.
  - (* cas 2 *)
    pose proof (Js _ _ H) as E; simpl in E.
    unfold pc_of in *. cu H (RetWith true).
    constructor; unfold wakes_called, wakes_returned, waits_true; rewrite ?count_snoc; simpl in *.
    + left. lia.
    + lia.
    + rewrite E in *. unfold Pos.to_nat in *; simpl in *. lia.
    + intros k p Hk. unfold pc_of in Hk; simpl in Hk.
      destruct (nth_upd _ _ _ _ _ _ H Hk) as [[-> ->]|[_ Hk']]; simpl; auto. apply (Js k). exact Hk'.
    + intros k Hk. lia.
  - (* cas 2 fails *)
    pose proof (Js _ _ H) as E; simpl in E. subst f.
    unfold pc_of in *. cu H (RetWith false).
    constructor; unfold wakes_called, wakes_returned, waits_true; rewrite ?count_snoc; simpl in *.
    + exact Jf.
    + lia.
    + lia.
    + intros k p Hk. unfold pc_of in Hk; simpl in Hk.
      destruct (nth_upd _ _ _ _ _ _ H Hk) as [[-> ->]|[_ Hk']]; simpl; auto. apply (Js k). exact Hk'.
    + intros k Hk. congruence.
  - destruct b; eapply SIMPLE; eauto; simpl; auto; try discriminate; try lia;
    repeat split; discriminate.
Qed.

Lemma J_run d n h s : run d (init n) h s -> clean h -> J h s.
Proof.
  intros R. remember (init n) as s0 eqn:E. induction R; intros C.
  - subst. apply J_init.
  - destruct (clean_snoc _ _ C) as [C1 C2]. eapply J_step; eauto.
Qed.

Lemma only_snoc w h e : only_waiter w (h ++ [e]) -> only_waiter w h.
Proof. intros H t Ht. apply H. apply in_or_app; auto. Qed.

(** Only [w] is ever inside wait(). *)
Definition waitpc p := match p with
  | Try1 | Try1c _ | FWait | Sleeping | Try2 | Try2c _ | RetWith _ => true | _ => false end.

Lemma waiter_pc d n h s w : run d (init n) h s -> clean h -> only_waiter w h ->
  forall t p, pc_of s t = Some p -> waitpc p = true -> t = w.
Proof.
  intros R. remember (init n) as s0 eqn:E. induction R as [|s0' h s1 e s2 R IH Hs]; intros C O t p Hp Hw.
  - subst. unfold pc_of in Hp; simpl in Hp. apply nth_error_In, repeat_spec in Hp. subst. discriminate.
  - destruct (clean_snoc _ _ C) as [C1 C2]. specialize (IH E C1 (only_snoc _ _ _ O)).
    unfold pc_of in *.
    inversion Hs; subst; simpl in C2; try discriminate; unfold pc_of in *; simpl in Hp;
    try (match goal with
    | [ Hx : nth_error (pcs s1) ?k = Some ?x, Hp : nth_error (upd (pcs s1) ?k ?y) t = Some p |- _ ] =>
      destruct (nth_upd _ _ _ _ _ _ Hx Hp) as [[-> ->]|[_ Hk']];
        [try discriminate; try (eapply IH; [exact Hx|reflexivity])|eapply IH; eauto]
    end; fail).
    + assert (Ne : w0 <> t0) by (intros ->; congruence).
      assert (Ht : nth_error (upd (pcs s1) w0 Try2) t0 = Some WkFetched)
        by (rewrite nth_upd_neq; auto).
      destruct (nth_upd _ _ _ _ _ _ Ht Hp) as [[-> ->]|[_ Hk']]; [discriminate|].
      destruct (nth_upd _ _ _ _ _ _ H0 Hk') as [[-> ->]|[_ Hk'']].
      * eapply IH; [exact H0|reflexivity].
      * eapply IH; eauto.
    + destruct (nth_upd _ _ _ _ _ _ H Hp) as [[-> ->]|[_ Hk']]; [|eapply IH; eauto].
      apply O. apply in_or_app; right; left; reflexivity.
Qed.

Lemma run_app d s h1 s1 h2 s2 : run d s h1 s1 -> run d s1 h2 s2 -> run d s (h1 ++ h2) s2.
Proof.
  intros R1 R2. induction R2.
  - rewrite app_nil_r. exact R1.
  - rewrite app_assoc. econstructor; eauto.
Qed.

Lemma run_one d s e s' : step d s e s' -> run d s [e] s'.
Proof. intros H. change [e] with ([] ++ [e]). econstructor; eauto. constructor. Qed.

Lemma clean_app h1 h2 : clean (h1 ++ h2) <-> clean h1 /\ clean h2.
Proof.
  split.
  - intros H. split; intros e He; apply H; apply in_or_app; auto.
  - intros [A B] e He. apply in_app_or in He as [He|He]; auto.
Qed.

Lemma count_app p h1 h2 : count p (h1 ++ h2) = count p h1 + count p h2.
Proof. unfold count. rewrite filter_app, app_length. reflexivity. Qed.

(** Thread [t]'s own position after a step by somebody else. *)
Lemma other_step d s e s' w p : step d s e s' -> pc_of s w = Some p ->
  pc_of s' w = Some p
  \/ (p = Sleeping /\ pc_of s' w = Some Try2 /\ exists k, k <> w /\ pc_of s k = Some WkFetched)
  \/ (exists q, pc_of s' w = Some q /\
      (e = Tau w \/ e = CallWake w \/ e = RetWake w \/ e = CallWait w \/ e = Die w
       \/ e = Interrupted w \/ (exists b, e = RetWait w b))).
Proof.
  intros Hs Hp. unfold pc_of in *.
  inversion Hs; subst; unfold pc_of in *; simpl;
  try (match goal with
  | [ Hx : nth_error (pcs s) ?k = Some ?x |- context[upd (pcs s) ?k ?y] ] =>
    destruct (Nat.eq_dec k w) as [->|Ne];
    [right; right; exists y; split; [eapply nth_upd_eq; eauto|eauto 10]
    |left; rewrite nth_upd_neq by auto; exact Hp]
  end; fail).
  - assert (Ne : w0 <> t) by (intros ->; congruence).
    assert (Ht : nth_error (upd (pcs s) w0 Try2) t = Some WkFetched)
      by (rewrite nth_upd_neq; auto).
    destruct (Nat.eq_dec t w) as [->|N1].
    + right; right; exists WkDone; split; [eapply nth_upd_eq; eauto|eauto 10].
    + rewrite nth_upd_neq by auto. destruct (Nat.eq_dec w0 w) as [->|N2].
      * right; left. rewrite Hp in H0. injection H0 as ->.
        split; auto. split; [eapply nth_upd_eq; eauto|]. exists t. auto.
      * left. rewrite nth_upd_neq by auto. exact Hp.
  - left. exact Hp.
Qed.
