(** Invariants of the FreeBSD semaphore model. *)
From Coq Require Import List ZArith Bool Arith Lia.
From Verif Require Import SemModel SemSpec SemProof UmtxModel.
Import ListNotations.
Local Open Scope nat_scope.

Definition ucnt (p : upc -> bool) (l : list upc) : nat := length (filter p l).
Lemma ucnt_upd p l i x y : nth_error l i = Some x ->
  ucnt p (upd l i y) + b2n (p x) = ucnt p l + b2n (p y).
Proof.
  revert i. induction l as [|a l IH]; intros [|i] H; simpl in *; try discriminate.
  - injection H as ->. unfold ucnt. simpl. destruct (p x), (p y); simpl; lia.
  - specialize (IH i H). unfold ucnt in *. simpl. destruct (p a); simpl; lia.
Qed.
Lemma ucnt_pos p l k x : nth_error l k = Some x -> p x = true -> ucnt p l <> 0.
Proof.
  intros H P. apply nth_error_In in H. unfold ucnt. assert (I : In x (filter p l)) by (apply filter_In; auto).
  destruct (filter p l); [destruct I|discriminate].
Qed.
Lemma ucnt_zero p l : (forall k x, nth_error l k = Some x -> p x = false) -> ucnt p l = 0.
Proof.
  intros H. unfold ucnt. destruct (filter p l) as [|x r] eqn:F; auto. exfalso.
  assert (I : In x (filter p l)) by (rewrite F; left; auto). apply filter_In in I as [I1 I2].
  apply In_nth_error in I1 as [k Hk]. rewrite (H _ _ Hk) in I2. discriminate.
Qed.
Lemma ucnt_one p l k x y z : p UIdle = false -> nth_error l k = Some x -> p x = true -> ucnt p l <= 1 -> nth_error l y = Some z -> p z = true -> y = k.
Proof.
  intros PI H P L H' P'. destruct (Nat.eq_dec y k) as [E|N]; auto. exfalso.
  pose proof (ucnt_upd p l k x UIdle H) as U. assert (K : nth_error (upd l k UIdle) y = Some z) by (rewrite nth_upd_neq by auto; exact H').
  pose proof (ucnt_pos p _ _ _ K P'). rewrite P, PI in U. cbn in U. lia.
Qed.
Lemma busy_cnt s : busy s = false <-> ucnt is_in (upcs s) = 0.
Proof.
  unfold busy, ucnt. induction (upcs s) as [|a l IH]; cbn; [tauto|]. destruct (is_in a); cbn; [|exact IH]. split; discriminate.
Qed.

Definition upStart p := match p with UWkStart => true | _ => false end.
Definition upLater p := match p with UWkCall | UWkIn _ | UWkDone => true | _ => false end.
Definition upTrue p := match p with URet true => true | _ => false end.

Definition good_word (w : Z) : Prop := (w = 0 \/ w = 1 \/ w = HAS \/ w = HAS + 1)%Z.
Definition tok (w : Z) : nat := Z.to_nat (ucount w).
Definition usane (p : upc) : Prop :=
  match p with UTry1c f | UTry2c f => f = 1%Z \/ f = (HAS + 1)%Z | UDead => False | _ => True end.
Definition transit (s : usem) (k : nat) : Prop :=
  upc_of s k = Some UWkCall \/ (exists one, upc_of s k = Some (UWkIn one)) \/ upc_of s k = Some UTry2 \/ upc_of s k = Some (UTry2c (word s)).

Record UJ (h : list event) (s : usem) : Prop := {
  u_word : good_word (word s);
  u_calls : wakes_called h = wakes_returned h + ucnt upStart (upcs s) + ucnt upLater (upcs s);
  u_tokens : tok (word s) + waits_true h + ucnt upTrue (upcs s) + ucnt upStart (upcs s) = wakes_called h;
  u_sane : forall t p, upc_of s t = Some p -> usane p;
  u_in : ucnt is_in (upcs s) <= 1;
  u_one : forall t, upc_of s t = Some (UWkIn true) -> ucnt is_sleeping (upcs s) <= 1;
  u_bit : ucnt is_sleeping (upcs s) <> 0 -> waiters (word s) = true;
  u_sleep : tok (word s) = 1 -> ucnt is_sleeping (upcs s) <> 0 -> exists k, transit s k
}.

Lemma tok_cases w : good_word w -> (w = 0 /\ tok w = 0%nat /\ waiters w = false \/ w = 1 /\ tok w = 1%nat /\ waiters w = false \/
  w = HAS /\ tok w = 0%nat /\ waiters w = true \/ w = HAS + 1 /\ tok w = 1%nat /\ waiters w = true)%Z.
Proof. intros [->|[->|[->| ->]]]; unfold tok, waiters, ucount; cbn; auto 10. Qed.
Lemma ucount_cases w : good_word w -> (ucount w = Z.of_nat (tok w))%Z.
Proof. intros [->|[->|[->| ->]]]; reflexivity. Qed.

Lemma UJ_init n : UJ [] (uinit n).
Proof.
  assert (E : forall t p, nth_error (repeat UIdle n) t = Some p -> p = UIdle).
  { intros t p H. apply nth_error_In, repeat_spec in H. exact H. }
  assert (Z : forall p, p UIdle = false -> ucnt p (repeat UIdle n) = 0).
  { intros p Hp. apply ucnt_zero. intros k x H. rewrite (E _ _ H). auto. }
  constructor; cbn [uinit word upcs]; rewrite ?Z by reflexivity; cbn; auto; try lia.
  - left. auto.
  - intros t p H. unfold upc_of in H. cbn in H. apply E in H. subst. exact I.
Qed.

Ltac ucu H y :=
  pose proof (ucnt_upd upStart _ _ _ y H); pose proof (ucnt_upd upLater _ _ _ y H);
  pose proof (ucnt_upd upTrue _ _ _ y H); pose proof (ucnt_upd is_in _ _ _ y H); pose proof (ucnt_upd is_sleeping _ _ _ y H).

Lemma sane_upd s t x y : upc_of s t = Some x -> (forall t p, upc_of s t = Some p -> usane p) -> usane y ->
  forall k p, nth_error (upd (upcs s) t y) k = Some p -> usane p.
Proof.
  intros H S Y k p K. destruct (nth_upd _ _ _ _ _ _ H K) as [[-> ->]|[_ K']]; auto. apply (S k). exact K'.
Qed.
Lemma uafter_cases d w c no : good_word w -> uafter_load d w c no = if Nat.eqb (tok w) 1 then c w else no.
Proof. intros [->|[->|[->| ->]]]; unfold uafter_load, tok, ucount; cbn; destruct d; reflexivity. Qed.

(** A step that leaves the word alone. *)
Lemma UJ_local h s e t x y : UJ h s -> upc_of s t = Some x -> usane y -> is_in y = false -> (y = USleeping -> False) ->
  (transit s t -> y = UTry2 \/ y = UTry2c (word s) \/ y = UWkCall \/ tok (word s) = 0 \/ (x = UWkCall /\ ucnt is_sleeping (upcs s) = 0)) ->
  b2n (is_call_wake e) + b2n (upStart x) + b2n (upLater x) = b2n (is_ret_wake e) + b2n (upStart y) + b2n (upLater y) ->
  b2n (is_call_wake e) + b2n (upStart x) + b2n (upTrue x) = b2n (is_true_ret e) + b2n (upStart y) + b2n (upTrue y) ->
  UJ (h ++ [e]) (ugoto s t y).
Proof.
  intros [Jw Jc Jt Js Ji Jo Jb Jl] Hx Hy HI HS HT E1 E2. unfold wakes_called, wakes_returned, waits_true in *.
  pose proof Hx as Hx'. unfold upc_of in Hx'. ucu Hx' y. rewrite HI in *.
  assert (SY : is_sleeping y = false) by (destruct y; auto; destruct (HS eq_refl)).
  rewrite SY in *. cbn [b2n] in *.
  assert (SL : ucnt is_sleeping (upd (upcs s) t y) <= ucnt is_sleeping (upcs s)) by lia.
  constructor; unfold wakes_called, wakes_returned, waits_true; rewrite ?count_snoc; cbn [ugoto word upcs]; auto; try lia.
  - unfold upc_of. cbn [ugoto upcs]. eapply sane_upd; eauto.
  - intros k K. unfold upc_of in K; cbn [ugoto upcs] in K.
    destruct (nth_upd _ _ _ _ _ _ Hx' K) as [[-> E]|[_ K']]; [subst y; discriminate|]. specialize (Jo k K'). lia.
  - intros N. apply Jb. lia.
  - intros T N. destruct (Jl T ltac:(lia)) as (k & K). destruct (Nat.eq_dec k t) as [->|NE].
    + exists t. unfold transit, upc_of; cbn [ugoto word upcs]. rewrite (nth_upd_eq _ _ _ _ Hx').
      destruct (HT K) as [->|[->|[->|[Z|[_ Z]]]]]; auto; lia.
    + exists k. unfold transit, upc_of in *; cbn [ugoto word upcs]. rewrite nth_upd_neq by auto. exact K.
Qed.

Lemma has_transit_not s t x : upc_of s t = Some x -> x <> UWkCall -> (forall b, x <> UWkIn b) -> x <> UTry2 -> (forall f, x <> UTry2c f) -> ~ transit s t.
Proof. intros H A C D E [T|[(b & T)|[T|T]]]; rewrite H in T; injection T as ->; eauto. eapply C; eauto. eapply E; eauto. Qed.

(** A compare-exchange that takes the token. *)
Lemma UJ_take h s t x : UJ h s -> upc_of s t = Some x -> is_sleeping x = false -> is_in x = false -> upStart x = false -> upLater x = false -> upTrue x = false ->
  (word s = 1%Z \/ word s = (HAS + 1)%Z) -> UJ (h ++ [Tau t]) (ugoto_set s (word s - 1) t (URet true)).
Proof.
  intros [Jw Jc Jt Js Ji Jo Jb Jl] Hx X1 X2 X3 X4 X5 W. unfold wakes_called, wakes_returned, waits_true in *.
  pose proof Hx as Hx'. unfold upc_of in Hx'. ucu Hx' (URet true). rewrite X1, X2, X3, X4, X5 in *. cbn [b2n upStart upLater upTrue is_in is_sleeping] in *.
  assert (V : tok (word s) = 1 /\ tok (word s - 1) = 0 /\ good_word (word s - 1) /\ waiters (word s - 1) = waiters (word s))
    by (destruct W as [->| ->]; cbn; unfold good_word; auto 10). destruct V as (V1 & V2 & V3 & V4).
  constructor; unfold wakes_called, wakes_returned, waits_true; rewrite ?count_snoc; cbn [ugoto_set word upcs is_call_wake is_ret_wake is_true_ret b2n]; auto; try lia.
  - unfold upc_of. cbn [ugoto_set upcs]. eapply sane_upd; eauto. exact I.
  - intros k K. unfold upc_of in K; cbn [ugoto_set upcs] in K.
    destruct (nth_upd _ _ _ _ _ _ Hx' K) as [[-> E]|[_ K']]; [discriminate|]. specialize (Jo k K'). lia.
  - intros N. rewrite V4. apply Jb. lia.
Qed.

Lemma UJ_step d h s e s' : UJ h s -> ustep d s e s' -> is_fault e = false -> UJ (h ++ [e]) s'.
Proof.
  intros J Hs Hf.
  assert (NT : forall t x, upc_of s t = Some x -> x <> UWkCall -> (forall b, x <> UWkIn b) -> x <> UTry2 -> (forall f, x <> UTry2c f) ->
    forall P : Prop, transit s t -> P) by (intros t x H A C D E P T; destruct (has_transit_not s t x H A C D E T)).
  inversion Hs; subst; cbn in Hf; try discriminate; clear Hs.
  - eapply UJ_local; eauto; cbn; auto; try discriminate. eapply NT; eauto; discriminate.
  - (* fetch *)
    destruct J as [Jw Jc Jt Js Ji Jo Jb Jl]. unfold wakes_called, wakes_returned, waits_true in *.
    pose proof H as Hx. unfold upc_of in Hx. set (y := if waiters (word s) then UWkCall else UWkDone).
    assert (Y : usane y /\ is_in y = false /\ is_sleeping y = false /\ upStart y = false /\ upLater y = true /\ upTrue y = false)
      by (unfold y; destruct (waiters (word s)); cbn; auto 10). destruct Y as (Y1 & Y2 & Y3 & Y4 & Y5 & Y6).
    ucu Hx y. rewrite Y2, Y3, Y4, Y5, Y6 in *. cbn [b2n upStart upLater upTrue is_in is_sleeping] in *.
    assert (TK : tok ((word s + 1) mod W32) = 1 /\ tok (word s) = 0 /\ good_word ((word s + 1) mod W32) /\ waiters ((word s + 1) mod W32) = waiters (word s)).
    { rewrite (ucount_cases _ Jw) in H0. destruct (tok_cases _ Jw) as [(E & _)|[(E & T & _)|[(E & _)|(E & T & _)]]]; try lia; rewrite E; cbn; unfold good_word; cbn; auto 10. }
    destruct TK as (T1 & T2 & T3 & T4).
    constructor; unfold wakes_called, wakes_returned, waits_true; rewrite ?count_snoc; cbn [ugoto_set word upcs is_call_wake is_ret_wake is_true_ret b2n]; auto; try lia.
    + unfold upc_of. cbn [ugoto_set upcs]. eapply sane_upd; eauto.
    + intros k K. unfold upc_of in K; cbn [ugoto_set upcs] in K.
      destruct (nth_upd _ _ _ _ _ _ Hx K) as [[-> E]|[_ K']]; [rewrite <- E in Y2; discriminate|]. specialize (Jo k K'). lia.
    + intros N. rewrite T4. apply Jb. lia.
    + intros _ N. exists t. left. unfold upc_of. cbn [ugoto_set upcs]. rewrite (nth_upd_eq _ _ _ _ Hx). unfold y. rewrite Jb by lia. auto.
  - (* counted *)
    destruct J as [Jw Jc Jt Js Ji Jo Jb Jl]. unfold wakes_called, wakes_returned, waits_true in *. apply busy_cnt in H0.
    pose proof H as Hx. unfold upc_of in Hx. ucu Hx (UWkIn (sleepers s =? 1)). cbn [b2n upStart upLater upTrue is_in is_sleeping] in *.
    constructor; unfold wakes_called, wakes_returned, waits_true; rewrite ?count_snoc; cbn [ugoto word upcs is_call_wake is_ret_wake is_true_ret b2n]; auto; try lia.
    + unfold upc_of. cbn [ugoto upcs]. eapply sane_upd; eauto. exact I.
    + intros k K. unfold upc_of in K; cbn [ugoto upcs] in K.
      destruct (nth_upd _ _ _ _ _ _ Hx K) as [[-> E]|[_ K']].
      * injection E as E. symmetry in E. apply Nat.eqb_eq in E. unfold sleepers in E. fold (ucnt is_sleeping (upcs s)) in E. lia.
      * exfalso. apply (ucnt_pos is_in _ _ _ K' eq_refl). auto.
    + intros T N. exists t. right; left. eexists. unfold upc_of. cbn [ugoto upcs]. eapply nth_upd_eq; eauto.
  - eapply UJ_local; eauto; cbn; auto; try discriminate. intros _. unfold sleepers in H1. fold (ucnt is_sleeping (upcs s)) in H1. auto 10.
  - (* signal *)
    destruct J as [Jw Jc Jt Js Ji Jo Jb Jl]. unfold wakes_called, wakes_returned, waits_true in *.
    assert (Ne : w <> t) by (intros ->; congruence). unfold upc_of in H, H0.
    assert (Ht : nth_error (upd (upcs s) w UTry2) t = Some (UWkIn one)) by (rewrite nth_upd_neq; auto).
    set (v := if one then ucount (word s) else word s).
    assert (V : tok v = tok (word s) /\ good_word v /\ (v = word s \/ one = true)).
    { unfold v. destruct one; auto. destruct (tok_cases _ Jw) as [(E & _)|[(E & _)|[(E & _)|(E & _)]]]; rewrite E; cbn; unfold good_word; auto 10. }
    destruct V as (V1 & V2 & V3).
    ucu H0 UTry2. ucu Ht UWkDone. cbn [b2n upStart upLater upTrue is_in is_sleeping] in *.
    constructor; unfold wakes_called, wakes_returned, waits_true; rewrite ?count_snoc; cbn [ugoto ugoto_set word upcs is_call_wake is_ret_wake is_true_ret b2n]; auto; try lia.
    + intros k p K. unfold upc_of in K; cbn [ugoto ugoto_set upcs] in K.
      destruct (nth_upd _ _ _ _ _ _ Ht K) as [[-> ->]|[_ K']]; [exact I|].
      destruct (nth_upd _ _ _ _ _ _ H0 K') as [[-> ->]|[_ K'']]; [exact I|]. apply (Js k). exact K''.
    + intros k K. unfold upc_of in K; cbn [ugoto ugoto_set upcs] in K.
      exfalso. destruct (nth_upd _ _ _ _ _ _ Ht K) as [[-> E]|[NE K']]; [discriminate|].
      destruct (nth_upd _ _ _ _ _ _ H0 K') as [[-> E]|[_ K'']]; [discriminate|].
      apply NE. apply (ucnt_one is_in (upcs s) t (UWkIn one) k (UWkIn true)); auto.
    + intros N. destruct V3 as [->|E]; [apply Jb; lia|]. subst one. specialize (Jo t H). lia.
    + intros T N. exists w. right; right; left. unfold upc_of; cbn [ugoto ugoto_set upcs]. rewrite nth_upd_neq by auto. eapply nth_upd_eq; eauto.
  - (* signal, nobody left *)
    destruct J as [Jw Jc Jt Js Ji Jo Jb Jl]. unfold wakes_called, wakes_returned, waits_true in *.
    pose proof H as Hx. unfold upc_of in Hx.
    set (v := if one then ucount (word s) else word s).
    assert (V : tok v = tok (word s) /\ good_word v).
    { unfold v. destruct one; auto. destruct (tok_cases _ Jw) as [(E & _)|[(E & _)|[(E & _)|(E & _)]]]; rewrite E; cbn; unfold good_word; auto 10. }
    destruct V as (V1 & V2). unfold sleepers in H0. fold (ucnt is_sleeping (upcs s)) in H0.
    ucu Hx UWkDone. cbn [b2n upStart upLater upTrue is_in is_sleeping] in *.
    constructor; unfold wakes_called, wakes_returned, waits_true; rewrite ?count_snoc; cbn [ugoto ugoto_set word upcs is_call_wake is_ret_wake is_true_ret b2n]; auto; try lia.
    + unfold upc_of. cbn [ugoto_set upcs]. eapply sane_upd; eauto. exact I.
  - eapply UJ_local; eauto; cbn; auto; try discriminate. eapply NT; eauto; discriminate.
  - eapply UJ_local; eauto; cbn; auto; try discriminate. eapply NT; eauto; discriminate.
  - (* load 1 *)
    pose proof (u_word _ _ J) as Jw. rewrite uafter_cases by auto.
    destruct (tok_cases _ Jw) as [(E & T & _)|[(E & T & _)|[(E & T & _)|(E & T & _)]]]; rewrite T, E; cbn [Nat.eqb];
      eapply UJ_local; eauto; cbn; auto; try discriminate; eapply NT; eauto; discriminate.
  - (* cas 1 *)
    eapply UJ_take; eauto; cbn; auto. apply (u_sane _ _ J _ _ H).
  - eapply UJ_local; eauto; cbn; auto; try discriminate. eapply NT; eauto; discriminate.
  - (* sleep *)
    destruct J as [Jw Jc Jt Js Ji Jo Jb Jl]. unfold wakes_called, wakes_returned, waits_true in *. apply busy_cnt in H0.
    pose proof H as Hx. unfold upc_of in Hx. rewrite (ucount_cases _ Jw) in H1.
    ucu Hx USleeping. cbn [b2n upStart upLater upTrue is_in is_sleeping] in *.
    assert (T : tok HAS = 0) by reflexivity.
    constructor; unfold wakes_called, wakes_returned, waits_true; rewrite ?count_snoc; cbn [ugoto ugoto_set word upcs is_call_wake is_ret_wake is_true_ret b2n]; auto; try lia.
    + unfold good_word. auto.
    + unfold upc_of. cbn [ugoto_set upcs]. eapply sane_upd; eauto. exact I.
    + intros k K. exfalso. unfold upc_of in K; cbn [ugoto_set upcs] in K.
      destruct (nth_upd _ _ _ _ _ _ Hx K) as [[-> E]|[_ K']]; [discriminate|]. apply (ucnt_pos is_in _ _ _ K' eq_refl). auto.
  - eapply UJ_local; eauto; cbn; auto; try discriminate.
  - eapply UJ_local; eauto; cbn; auto; try discriminate.
  - eapply UJ_local; eauto; cbn; auto; try discriminate. eapply NT; eauto; discriminate.
  - (* load 2 *)
    pose proof (u_word _ _ J) as Jw. rewrite uafter_cases by auto.
    destruct (tok_cases _ Jw) as [(E & T & _)|[(E & T & _)|[(E & T & _)|(E & T & _)]]]; rewrite T; cbn [Nat.eqb];
      eapply UJ_local; eauto; cbn; auto; try discriminate; rewrite E; auto.
  - eapply UJ_take; eauto; cbn; auto. apply (u_sane _ _ J _ _ H).
  - (* cas 2 fails *)
    eapply UJ_local; eauto; cbn; auto; try discriminate. intros [K|[(b & K)|[K|K]]]; rewrite H in K; try discriminate. congruence.
  - destruct b; eapply UJ_local; eauto; cbn; auto; try discriminate; eapply NT; eauto; discriminate.
Qed.

Lemma UJ_run d n h s : urun d (uinit n) h s -> clean h -> UJ h s.
Proof.
  intros R. remember (uinit n) as s0 eqn:E. induction R; intros C.
  - subst. apply UJ_init.
  - destruct (clean_snoc _ _ C) as [C1 C2]. eapply UJ_step; eauto.
Qed.
Lemma urun_app d s h1 s1 h2 s2 : urun d s h1 s1 -> urun d s1 h2 s2 -> urun d s (h1 ++ h2) s2.
Proof.
  intros R1 R2. induction R2.
  - rewrite app_nil_r. exact R1.
  - rewrite app_assoc. econstructor; eauto.
Qed.
Lemma urun_cons d s e s1 h s2 : ustep d s e s1 -> urun d s1 h s2 -> urun d s (e :: h) s2.
Proof. intros H R. change (e :: h) with ([e] ++ h). eapply urun_app; eauto. change [e] with ([] ++ [e]). econstructor; eauto. constructor. Qed.

(** Only [w] is ever inside wait(). *)
Definition uwaitpc p := match p with
  | UTry1 | UTry1c _ | UFWait | USleeping | UTry2 | UTry2c _ | URet _ => true | _ => false end.

(** What one step does to one thread. *)
Definition moves (e : event) (t : nat) : Prop :=
  e = Tau t \/ e = CallWake t \/ e = RetWake t \/ e = CallWait t \/ e = Die t \/ e = Interrupted t \/ exists b, e = RetWait t b.
Lemma ustep_other d s e s' t : ustep d s e s' -> ~ moves e t -> upc_of s' t = upc_of s t \/ (upc_of s t = Some USleeping /\ upc_of s' t = Some UTry2 /\ exists k one, e = Tau k /\ upc_of s k = Some (UWkIn one)).
Proof.
  intros S NM. unfold moves in NM. inversion S; subst; unfold upc_of in *; cbn [ugoto ugoto_set upcs];
    try (left; apply nth_upd_neq; intros ->; apply NM; eauto 10; fail).
  - assert (Nt : t0 <> t) by (intros ->; apply NM; auto). rewrite nth_upd_neq by auto.
    destruct (Nat.eq_dec w t) as [->|N]; [|left; apply nth_upd_neq; auto].
    right. split; auto. split; [eapply nth_upd_eq; eauto|]. eauto.
  - left. auto.
Qed.
Lemma ustep_wait d s e s' t : ustep d s e s' -> forall p q, upc_of s t = Some p -> upc_of s' t = Some q -> uwaitpc q = true -> uwaitpc p = true \/ e = CallWait t.
Proof.
  intros S p q P Q WQ.
  assert (D : moves e t \/ ~ moves e t).
  { unfold moves. destruct e as [k|k|k|k b|k|k|v|k]; try (destruct (Nat.eq_dec k t) as [->|N]; [left; eauto 10|right; intros [E|[E|[E|[E|[E|[E|(b' & E)]]]]]]; congruence]).
    right; intros [E|[E|[E|[E|[E|[E|(b' & E)]]]]]]; congruence. }
  destruct D as [D|D].
  - inversion S; subst; unfold moves in D; unfold upc_of in *; cbn [ugoto ugoto_set upcs] in Q;
      try (assert (t0 = t) by (destruct D as [E|[E|[E|[E|[E|[E|(b' & E)]]]]]]; congruence); subst t0;
           try (rewrite (nth_upd_eq _ _ _ _ H) in Q); try (injection Q as <-); try discriminate;
           rewrite P in H; injection H as ->; auto; fail).
    + assert (t0 = t) by (destruct D as [E|[E|[E|[E|[E|[E|(b' & E)]]]]]]; congruence). subst t0.
      rewrite (nth_upd_eq _ _ _ _ H) in Q. injection Q as <-. destruct (waiters (word s)); discriminate.
    + assert (t0 = t) by (destruct D as [E|[E|[E|[E|[E|[E|(b' & E)]]]]]]; congruence). subst t0.
      assert (Ht : nth_error (upd (upcs s) w UTry2) t = Some (UWkIn one)) by (rewrite nth_upd_neq; auto; intros ->; congruence).
      rewrite (nth_upd_eq _ _ _ _ Ht) in Q. injection Q as <-. discriminate.
    + exfalso. destruct D as [E|[E|[E|[E|[E|[E|(b' & E)]]]]]]; congruence.
  - destruct (ustep_other _ _ _ _ _ S D) as [E|(E & _)].
    + left. congruence.
    + left. rewrite P in E. injection E as ->. auto.
Qed.
Lemma ustep_len d s e s' : ustep d s e s' -> length (upcs s') = length (upcs s).
Proof.
  assert (L : forall (l : list upc) i y, length (upd l i y) = length l) by (induction l; intros [|i] y; cbn; auto).
  intros S. inversion S; subst; cbn [ugoto ugoto_set upcs]; rewrite ?L; auto.
Qed.
Lemma ustep_back d s e s' t q : ustep d s e s' -> upc_of s' t = Some q -> exists p, upc_of s t = Some p.
Proof.
  intros S Q. unfold upc_of in *. destruct (nth_error (upcs s) t) eqn:E; eauto. exfalso.
  apply nth_error_None in E. rewrite <- (ustep_len _ _ _ _ S) in E. apply nth_error_None in E. congruence.
Qed.
Lemma uwaiter_pc d n h s w : urun d (uinit n) h s -> only_waiter w h ->
  forall t p, upc_of s t = Some p -> uwaitpc p = true -> t = w.
Proof.
  intros R. remember (uinit n) as s0 eqn:E. induction R as [|s0' h s1 e s2 R IH Hs]; intros O t p Hp Hw.
  - subst. unfold upc_of in Hp; cbn in Hp. apply nth_error_In, repeat_spec in Hp. subst. discriminate.
  - destruct (ustep_back _ _ _ _ _ _ Hs Hp) as (p0 & P0).
    destruct (ustep_wait _ _ _ _ _ Hs _ _ P0 Hp Hw) as [W| ->].
    + eapply IH; eauto. eapply only_snoc; eauto.
    + apply O. apply in_or_app; right; left; reflexivity.
Qed.

(** With an unconsumed wake and no waker inside, nothing but the waiter moves the word. *)
Lemma frozen d s e s' w : ustep d s e s' -> is_fault e = false -> good_word (word s) -> tok (word s) = 1 -> ucnt upLater (upcs s) = 0 ->
  (forall t p, upc_of s t = Some p -> uwaitpc p = true -> t = w) -> ~ moves e w ->
  word s' = word s /\ upc_of s' w = upc_of s w /\ ucnt upLater (upcs s') = 0.
Proof.
  intros S F G T L OW NM.
  assert (NL : forall k p, upc_of s k = Some p -> upLater p = false).
  { intros k p K. destruct (upLater p) eqn:U; auto. destruct (ucnt_pos upLater _ _ _ K U L). }
  assert (W' : upc_of s' w = upc_of s w).
  { destruct (ustep_other _ _ _ _ _ S NM) as [E|(_ & _ & k & one & _ & K)]; auto. specialize (NL _ _ K). discriminate. }
  assert (UC : ucount (word s) <> 0%Z) by (rewrite ucount_cases by auto; lia).
  inversion S; subst; cbn in F; try discriminate; try contradiction; try (specialize (NL _ _ H); discriminate);
    try (destruct NM; assert (t = w) by (eapply OW; [exact H|reflexivity]); subst t; unfold moves; eauto 10; fail).
  - split; auto. split; auto. pose proof H as Hx. unfold upc_of in Hx. pose proof (ucnt_upd upLater _ _ _ UWkStart Hx). cbn [upLater b2n ugoto upcs] in *. lia.
  - split; auto. split; auto. pose proof H as Hx. unfold upc_of in Hx. pose proof (ucnt_upd upLater _ _ _ UTry1 Hx). cbn [upLater b2n ugoto upcs] in *. lia.
Qed.
