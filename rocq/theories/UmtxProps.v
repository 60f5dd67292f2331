(** Claimed theorems about the FreeBSD one-bit semaphore (C58). *)
From Coq Require Import List ZArith Bool Arith Lia.
From Verif Require Import SemModel SemSpec SemProof UmtxModel UmtxProof.
Import ListNotations.
Local Open Scope nat_scope.

(** A wait that reports success consumed a wake and no wake is consumed twice,
    for every number of threads and every schedule; when all threads are outside
    the semaphore's functions its count is exactly the unconsumed wakes, at most
    one. *)
Theorem umtx_wakes_consumed_once : forall debug n h s,
  urun debug (uinit n) h s -> clean h ->
  waits_true h <= wakes_called h
  /\ ((forall t p, upc_of s t = Some p -> p = UIdle) ->
      ucount (word s) = Z.of_nat (wakes_called h - waits_true h) /\ wakes_called h <= waits_true h + 1).
Proof.
  intros debug n h s R C. destruct (UJ_run _ _ _ _ R C) as [Jw Jc Jt _ _ _ _ _]. split; [lia|].
  intros Hi.
  assert (Z0 : forall p, p UIdle = false -> ucnt p (upcs s) = 0) by (intros p Hp; apply ucnt_zero; intros k x K; rewrite (Hi _ _ K); auto).
  rewrite (Z0 upTrue), (Z0 upStart) in Jt by reflexivity. rewrite ucount_cases by auto.
  destruct (tok_cases _ Jw) as [(_ & T & _)|[(_ & T & _)|[(_ & T & _)|(_ & T & _)]]]; rewrite T in *; split; lia.
Qed.
Print Assumptions umtx_wakes_consumed_once.

(** If callers never wake while an earlier wake is unconsumed, no process is
    ever aborted by the semaphore. *)
Theorem umtx_no_abort : forall debug n h s,
  urun debug (uinit n) h s ->
  (forall h1 h2, h = h1 ++ h2 -> wakes_called h1 <= waits_true h1 + 1) ->
  (forall v, ~ In (Corrupt v) h) ->
  forall t, ~ In (Die t) h.
Proof.
  intros debug n h s R D N. cut (clean h).
  { intros C t Ht. specialize (C _ Ht). discriminate. }
  remember (uinit n) as s0 eqn:E. induction R as [|s0 h s1 e s2 R IH Hs].
  - intros e [].
  - assert (C : clean h).
    { apply IH; auto.
      - intros h1 h2 ->. apply (D h1 (h2 ++ [e])). rewrite app_assoc. reflexivity.
      - intros v Hv. apply (N v). apply in_or_app; auto. }
    apply clean_app. split; auto. intros x [<-|[]].
    subst s0. destruct (UJ_run _ _ _ _ R C) as [Jw Jc Jt Js _ _ _ _].
    inversion Hs; subst; try reflexivity; exfalso.
    + specialize (D h _ eq_refl). rewrite ucount_cases in H0 by auto.
      pose proof (ucnt_pos upStart _ _ _ H eq_refl) as K. lia.
    + rewrite uafter_cases in H0 by auto. destruct (Nat.eqb _ _); discriminate.
    + rewrite uafter_cases in H0 by auto. destruct (Nat.eqb _ _); discriminate.
    + apply (N v). apply in_or_app; right; left; auto.
Qed.
Print Assumptions umtx_no_abort.

Lemma idle_true s w : (forall t p, upc_of s t = Some p -> uwaitpc p = true -> t = w) ->
  (forall p, upc_of s w = Some p -> upTrue p = false) -> ucnt upTrue (upcs s) = 0.
Proof.
  intros OW H. apply ucnt_zero. intros k x K. destruct (upTrue x) eqn:T; auto.
  assert (k = w) by (eapply OW; [exact K|destruct x; try discriminate; reflexivity]). subst k. rewrite (H x K) in T. discriminate.
Qed.

(** With a single waiting thread, a wake that has returned and has not been
    consumed never leaves that thread asleep in the kernel. *)
Theorem umtx_no_lost_wakeup : forall debug n h s w,
  urun debug (uinit n) h s -> clean h -> only_waiter w h ->
  waits_true h < wakes_returned h ->
  upc_of s w <> Some USleeping.
Proof.
  intros debug n h s w R C O P Hw. pose proof (uwaiter_pc _ _ _ _ _ R O) as OW.
  destruct (UJ_run _ _ _ _ R C) as [Jw Jc Jt Js Ji Jo Jb Jl].
  rewrite (idle_true s w OW) in Jt by (intros p Hp; rewrite Hw in Hp; injection Hp as <-; reflexivity).
  pose proof (ucnt_pos is_sleeping _ _ _ Hw eq_refl) as SL.
  assert (T : tok (word s) = 1) by (destruct (tok_cases _ Jw) as [(_ & T & _)|[(_ & T & _)|[(_ & T & _)|(_ & T & _)]]]; lia).
  destruct (Jl T SL) as (k & [K|[(one & K)|[K|K]]]).
  - pose proof (ucnt_pos upLater _ _ _ K eq_refl). lia.
  - pose proof (ucnt_pos upLater _ _ _ K eq_refl). lia.
  - assert (k = w) by (eapply OW; [exact K|reflexivity]). subst. congruence.
  - assert (k = w) by (eapply OW; [exact K|reflexivity]). subst. congruence.
Qed.
Print Assumptions umtx_no_lost_wakeup.

(** A wait() that starts after an unconsumed wake has returned never sleeps and
    returns true. *)
Theorem umtx_pending_wait_succeeds : forall debug n h1 s1 w s2 h2 s3,
  urun debug (uinit n) h1 s1 -> ustep debug s1 (CallWait w) s2 -> urun debug s2 h2 s3 ->
  clean (h1 ++ CallWait w :: h2) -> only_waiter w (h1 ++ CallWait w :: h2) ->
  ~ In (CallWait w) h2 ->
  waits_true h1 < wakes_returned h1 ->
  upc_of s3 w <> Some USleeping /\ forall b, In (RetWait w b) h2 -> b = true.
Proof.
  intros debug n h1 s1 w s2 h2 s3 R1 S1 R2 C O N P.
  cut (((upc_of s3 w = Some UTry1 \/ upc_of s3 w = Some (UTry1c (word s3))) /\ tok (word s3) = 1 /\ ucnt upLater (upcs s3) = 0 /\ (forall b, ~ In (RetWait w b) h2))
    \/ (upc_of s3 w = Some (URet true) /\ forall b, ~ In (RetWait w b) h2)
    \/ ((forall p, upc_of s3 w = Some p -> uwaitpc p = false) /\ forall b, In (RetWait w b) h2 -> b = true)).
  { intros [(A & _ & _ & X)|[[A X]|[A X]]].
    - split; [destruct A; congruence|]. intros b Hb. destruct (X b Hb).
    - split; [congruence|]. intros b Hb. destruct (X b Hb).
    - split; auto. intros E. specialize (A _ E). discriminate. }
  induction R2 as [s2|s2 h2 s3 e s4 R2 IH Hs].
  - left. assert (C1 : clean h1) by (apply clean_app in C as [C _]; exact C).
    assert (O1 : only_waiter w h1) by (intros t Ht; apply O, in_or_app; auto).
    pose proof (uwaiter_pc _ _ _ _ _ R1 O1) as OW. destruct (UJ_run _ _ _ _ R1 C1) as [Jw Jc Jt Js Ji Jo Jb Jl].
    inversion S1; subst. pose proof H1 as Hx. unfold upc_of in Hx.
    rewrite (idle_true s1 w OW) in Jt by (intros p Hp; rewrite H1 in Hp; injection Hp as <-; reflexivity).
    pose proof (ucnt_upd upLater _ _ _ UTry1 Hx) as UL. cbn [upLater b2n] in UL.
    assert (T : tok (word s1) = 1) by (destruct (tok_cases _ Jw) as [(_ & T & _)|[(_ & T & _)|[(_ & T & _)|(_ & T & _)]]]; lia).
    split; [left; unfold upc_of; cbn [ugoto upcs]; eapply nth_upd_eq; eauto|]. cbn [ugoto word upcs]. split; auto. split; [lia|intros b []].
  - assert (RR : urun debug (uinit n) (h1 ++ CallWait w :: h2) s3).
    { replace (h1 ++ CallWait w :: h2) with ((h1 ++ [CallWait w]) ++ h2) by (rewrite <- app_assoc; reflexivity).
      eapply urun_app; [|exact R2]. eapply urun_snoc; eauto. }
    assert (Cs : clean ((h1 ++ CallWait w :: h2) ++ [e])) by (rewrite <- app_assoc; exact C).
    assert (Os : only_waiter w ((h1 ++ CallWait w :: h2) ++ [e])) by (rewrite <- app_assoc; exact O).
    destruct (clean_snoc _ _ Cs) as [C' Ef]. pose proof (only_snoc _ _ _ Os) as O'.
    assert (Nw : e <> CallWait w) by (intros ->; apply N; apply in_or_app; right; left; auto).
    pose proof (uwaiter_pc _ _ _ _ _ RR O') as OW. destruct (UJ_run _ _ _ _ RR C') as [Jw Jc Jt Js Ji Jo Jb Jl].
    specialize (IH S1 C' O' (fun H => N (in_or_app _ _ _ (or_introl H)))).
    assert (NR : forall b, In (RetWait w b) (h2 ++ [e]) -> In (RetWait w b) h2 \/ e = RetWait w b).
    { intros b Hb. apply in_app_or in Hb as [Hb|[Hb|[]]]; auto. }
    assert (MV : moves e w \/ ~ moves e w).
    { unfold moves. destruct e as [k|k|k|k b|k|k|v|k]; try (destruct (Nat.eq_dec k w) as [->|NE]; [left; eauto 10|right; intros [E|[E|[E|[E|[E|[E|(b' & E)]]]]]]; congruence]).
      right; intros [E|[E|[E|[E|[E|[E|(b' & E)]]]]]]; congruence. }
    assert (NE : forall b, ~ moves e w -> e <> RetWait w b) by (intros b NM ->; apply NM; unfold moves; eauto 10).
    destruct IH as [(A & T & L & X)|[(A & X)|(A & X)]].
    + assert (NR' : (forall b, e <> RetWait w b) -> forall b, ~ In (RetWait w b) (h2 ++ [e])).
      { intros Y b Hb. destruct (NR b Hb) as [Hb'| ->]; [exact (X b Hb')|exact (Y b eq_refl)]. }
      destruct MV as [M|M].
      2:{ left. destruct (frozen _ _ _ _ _ Hs Ef Jw T L OW M) as (F1 & F2 & F3). rewrite F1, F2. auto 10. }
      assert (PU : forall x y, upc_of s3 w = Some x -> upLater x = false -> upLater y = false -> ucnt upLater (upd (upcs s3) w y) = 0).
      { intros x y Hx Ux Uy. pose proof (ucnt_upd upLater _ _ _ y Hx) as U. rewrite Ux, Uy in U. cbn in U. lia. }
      destruct A as [A|A]; inversion Hs; subst; cbn in Ef; try discriminate;
        try (assert (t = w) by (unfold moves in M; destruct M as [E|[E|[E|[E|[E|[E|(b' & E)]]]]]]; congruence); subst t);
        unfold upc_of in *; try congruence.
      * left. rewrite uafter_cases by auto. rewrite T. cbn [Nat.eqb ugoto word upcs].
        split; [right; eapply nth_upd_eq; eauto|]. split; auto. split; [eapply PU; eauto|]. apply NR'. discriminate.
      * right; left. split; [cbn; eapply nth_upd_eq; eauto|]. apply NR'. discriminate.
    + destruct MV as [M|M].
      2:{ right; left. destruct (ustep_other _ _ _ _ _ Hs M) as [E|(E & _)]; [|congruence]. rewrite E. split; auto.
          intros b Hb. destruct (NR b Hb) as [Hb'|Hb']; [exact (X b Hb')|exact (NE b M Hb')]. }
      right; right.
      assert (E : e = RetWait w true).
      { inversion Hs; subst; unfold moves in M; destruct M as [E|[E|[E|[E|[E|[E|(b' & E)]]]]]]; congruence. }
      subst e. inversion Hs; subst. split.
      * intros p Hp. unfold upc_of in Hp, A; cbn [ugoto upcs] in Hp. rewrite (nth_upd_eq _ _ _ _ A) in Hp. injection Hp as <-. reflexivity.
      * intros b Hb. destruct (NR b Hb) as [Hb'|Hb']; [destruct (X b Hb')|congruence].
    + right; right. split.
      * intros p Hp. destruct (uwaitpc p) eqn:WP; auto. exfalso.
        destruct (ustep_back _ _ _ _ _ _ Hs Hp) as (q & Q).
        destruct (ustep_wait _ _ _ _ _ Hs _ _ Q Hp WP) as [W|W]; [|contradiction]. rewrite (A _ Q) in W. discriminate.
      * intros b Hb. destruct (NR b Hb) as [Hb'|Hb']; [eauto|]. subst e. inversion Hs; subst. specialize (A _ H3). discriminate.
Qed.
Print Assumptions umtx_pending_wait_succeeds.

(** With any number of waiters, while a wake is unconsumed and some waiter
    sleeps, some thread that is not asleep is about to pass the wake on or to take
    it. *)
Theorem umtx_wake_in_transit : forall debug n h s t,
  urun debug (uinit n) h s -> clean h -> ucount (word s) <> 0%Z -> upc_of s t = Some USleeping ->
  exists k, upc_of s k = Some UWkCall \/ (exists one, upc_of s k = Some (UWkIn one)) \/ upc_of s k = Some UTry2 \/ upc_of s k = Some (UTry2c (word s)).
Proof.
  intros debug n h s t R C E Ht. destruct (UJ_run _ _ _ _ R C) as [Jw Jc Jt Js Ji Jo Jb Jl].
  rewrite ucount_cases in E by auto. apply Jl; [|eapply ucnt_pos; eauto].
  destruct (tok_cases _ Jw) as [(_ & T & _)|[(_ & T & _)|[(_ & T & _)|(_ & T & _)]]]; lia.
Qed.
Print Assumptions umtx_wake_in_transit.

(** wait() is never stuck: the waiting thread has a step of its own, or the
    kernel is in the middle of a wake by another thread, which has one. *)
Theorem umtx_wait_progress : forall debug s w p,
  upc_of s w = Some p -> uwaitpc p = true ->
  (exists e s', ustep debug s e s' /\ (e = Tau w \/ e = Die w \/ exists b, e = RetWait w b)) \/
  (exists k one s', upc_of s k = Some (UWkIn one) /\ ustep debug s (Tau k) s').
Proof.
  intros debug s w p Hp Hw. destruct p; try discriminate.
  - left. destruct (uafter_load debug (word s) UTry1c UFWait) eqn:E;
      try (eexists _, _; split; [eapply u_load1; eauto; congruence|auto]; fail).
    eexists _, _; split; [eapply u_load1_die; eauto|auto].
  - left. destruct (Z.eq_dec (word s) f) as [E|E].
    + eexists _, _; split; [eapply u_cas1; eauto|auto].
    + eexists _, _; split; [eapply u_cas1_fail; eauto|auto].
  - destruct (busy s) eqn:BZ.
    + right. unfold busy in BZ. apply existsb_exists in BZ as (x & I & X). destruct x; try discriminate.
      apply In_nth_error in I as (k & K). exists k, one.
      destruct (Nat.eq_dec (sleepers s) 0) as [Z|Z]; [eexists; split; [exact K|]; eapply u_signal_none; eauto|].
      unfold sleepers in Z. destruct (filter is_sleeping (upcs s)) as [|x l] eqn:F; [destruct Z; auto|].
      assert (I : In x (filter is_sleeping (upcs s))) by (rewrite F; left; auto). apply filter_In in I as [I X'].
      apply In_nth_error in I as (j & J). destruct x; try discriminate.
      eexists. split; [exact K|]. eapply u_signal; eauto.
    + left. destruct (Z.eq_dec (ucount (word s)) 0) as [E|E].
      * eexists _, _; split; [eapply u_kernel_wait; eauto|auto].
      * eexists _, _; split; [eapply u_kernel_wait_not; eauto|auto].
  - left. eexists _, _; split; [eapply u_timeout; eauto|auto].
  - left. destruct (uafter_load debug (word s) UTry2c (URet false)) eqn:E;
      try (eexists _, _; split; [eapply u_load2; eauto; congruence|auto]; fail).
    eexists _, _; split; [eapply u_load2_die; eauto|auto].
  - left. destruct (Z.eq_dec (word s) f) as [E|E].
    + eexists _, _; split; [eapply u_cas2; eauto|auto].
    + eexists _, _; split; [eapply u_cas2_fail; eauto|auto].
  - left. eexists _, _; split; [eapply u_ret_wait; eauto|eauto].
Qed.
Print Assumptions umtx_wait_progress.

Definition uis_tau (w : nat) e := match e with Tau t => Nat.eqb t w | _ => false end.
Definition urank p := match p with
  | UTry1 => 6 | UTry1c _ => 5 | UFWait => 4 | USleeping => 3 | UTry2 => 2 | UTry2c _ => 1 | _ => 0 end.

(** A wait() makes at most six internal steps before it returns, unless signals
    interrupt it. *)
Theorem umtx_wait_bounded : forall debug s w p h s',
  urun debug s h s' -> upc_of s w = Some p -> uwaitpc p = true ->
  ~ In (Interrupted w) h -> (forall b, ~ In (RetWait w b) h) ->
  count (uis_tau w) h <= 6.
Proof.
  intros debug s w p h s' R Hp Hw NI NR.
  cut (exists q, upc_of s' w = Some q /\ (uwaitpc q = true \/ q = UDead) /\ count (uis_tau w) h + urank q <= 6).
  { intros [q [_ [_ BD]]]. lia. }
  induction R as [s|s h s1 e s2 R IH Hs].
  - exists p. split; auto. split; auto. destruct p; cbn; lia.
  - destruct IH as [q [Hq [Wq Bq]]]; auto.
    { intros X. apply NI, in_or_app; auto. }
    { intros b X. apply (NR b), in_or_app; auto. }
    rewrite count_snoc.
    assert (Ne : e <> Interrupted w) by (intros ->; apply NI, in_or_app; right; left; auto).
    assert (Nr : forall b, e <> RetWait w b) by (intros b ->; apply (NR b), in_or_app; right; left; auto).
    clear R Hp NI NR.
    inversion Hs; subst; unfold upc_of in *; cbn [upcs ugoto ugoto_set];
      try (match goal with [H : nth_error (upcs s1) ?t = Some ?x |- context[upd (upcs s1) ?t ?y]] =>
      destruct (Nat.eq_dec t w) as [->|N1];
      [exists y; split; [eapply nth_upd_eq; eauto|];
       rewrite Hq in H; injection H as ->; cbn [uis_tau urank b2n] in *; rewrite ?Nat.eqb_refl; cbn;
       try (exfalso; destruct Wq; discriminate); try congruence;
       try (split; [solve [auto]|cbn in Bq; lia])
      |exists q; simpl; rewrite nth_upd_neq by auto; split; [exact Hq|split; [exact Wq|]];
       cbn [uis_tau b2n]; rewrite ?(proj2 (Nat.eqb_neq t w) N1); cbn; lia] end; fail).
    + assert (Nt : t <> w) by (intros ->; rewrite Hq in H; injection H as ->; destruct Wq; discriminate).
      cbn [uis_tau b2n]. rewrite (proj2 (Nat.eqb_neq t w) Nt). cbn. rewrite nth_upd_neq by auto.
      destruct (Nat.eq_dec w0 w) as [->|N2].
      * exists UTry2. split; [eapply nth_upd_eq; eauto|]. split; auto.
        rewrite Hq in H0. injection H0 as ->. cbn in *. lia.
      * rewrite nth_upd_neq by auto. exists q. split; auto. split; auto. lia.
    + destruct (Nat.eq_dec t w) as [->|N1].
      * eexists. split; [simpl; eapply nth_upd_eq; eauto|].
        rewrite Hq in H. injection H as ->. cbn [uis_tau]. rewrite Nat.eqb_refl. cbn in *.
        unfold uafter_load in *. destruct (0 <? ucount (word s1))%Z; [destruct (debug && negb (ucount (word s1) =? 1)%Z)|];
        cbn; split; auto; lia.
      * exists q; simpl; rewrite nth_upd_neq by auto; split; [exact Hq|split; [exact Wq|]].
        cbn [uis_tau b2n]. rewrite (proj2 (Nat.eqb_neq t w) N1). cbn. lia.
    + destruct (Nat.eq_dec t w) as [->|N1].
      * eexists. split; [simpl; eapply nth_upd_eq; eauto|].
        rewrite Hq in H. injection H as ->. cbn [uis_tau]. rewrite Nat.eqb_refl. cbn in *.
        unfold uafter_load in *. destruct (0 <? ucount (word s1))%Z; [destruct (debug && negb (ucount (word s1) =? 1)%Z)|];
        cbn; split; auto; lia.
      * exists q; simpl; rewrite nth_upd_neq by auto; split; [exact Hq|split; [exact Wq|]].
        cbn [uis_tau b2n]. rewrite (proj2 (Nat.eqb_neq t w) N1). cbn. lia.
    + exists q. split; [exact Hq|]. split; [exact Wq|]. cbn. lia.
Qed.
Print Assumptions umtx_wait_bounded.

(** A single waiter asleep while a wake is unconsumed is about to be woken: the
    waking thread is before or inside its kernel call, can take its next step, and
    its next one or two steps put the waiter back on its feet. *)
Theorem umtx_sleeper_is_woken : forall debug n h s w,
  urun debug (uinit n) h s -> clean h -> only_waiter w h ->
  upc_of s w = Some USleeping -> ucount (word s) <> 0%Z ->
  exists k, (exists s', ustep debug s (Tau k) s') /\
    forall s', ustep debug s (Tau k) s' ->
      upc_of s' w = Some UTry2 \/
      ((exists s'', ustep debug s' (Tau k) s'') /\
       forall s'', ustep debug s' (Tau k) s'' -> upc_of s'' w = Some UTry2).
Proof.
  intros debug n h s w R C O Hw E. pose proof (uwaiter_pc _ _ _ _ _ R O) as OW.
  assert (SIG : forall s0 k one, upc_of s0 k = Some (UWkIn one) -> upc_of s0 w = Some USleeping ->
      (forall t p, upc_of s0 t = Some p -> uwaitpc p = true -> t = w) ->
      (exists s', ustep debug s0 (Tau k) s') /\ forall s', ustep debug s0 (Tau k) s' -> upc_of s' w = Some UTry2).
  { intros s0 k one K Hw0 OW0. split; [eexists; eapply u_signal; eauto|]. intros s' Hs.
    assert (k <> w) by (intros ->; congruence). inversion Hs; subst; unfold upc_of in *; try congruence.
    - assert (w0 = w) by (eapply OW0; eauto). subst w0. cbn [ugoto_set ugoto upcs]. rewrite nth_upd_neq by auto. eapply nth_upd_eq; eauto.
    - exfalso. match goal with [Z : sleepers s0 = 0 |- _] => revert Z end. unfold sleepers. change (length (filter is_sleeping (upcs s0))) with (ucnt is_sleeping (upcs s0)).
      exact (ucnt_pos is_sleeping _ _ _ Hw0 eq_refl). }
  destruct (busy s) eqn:BZ.
  { unfold busy in BZ. apply existsb_exists in BZ as (x & I & X). apply In_nth_error in I as (j & Jn).
    destruct x; try discriminate. exists j. destruct (SIG _ _ _ Jn Hw OW) as [A B]. split; [exact A|]. intros s' Hs. left. auto. }
  destruct (umtx_wake_in_transit _ _ _ _ _ R C E Hw) as (k & K). exists k.
  destruct K as [K|[(one & K)|[K|K]]]; try (assert (k = w) by (eapply OW; [exact K|reflexivity]); subst; congruence).
  2:{ destruct (SIG _ _ _ K Hw OW) as [A B]. split; [exact A|]. intros s' Hs. left. auto. }
  assert (NE : k <> w) by (intros ->; congruence).
  assert (SL : sleepers s <> 0) by exact (ucnt_pos is_sleeping _ _ _ Hw eq_refl).
  split; [eexists; eapply u_kernel_wake; eauto|]. intros s' Hs. right.
  assert (Es : s' = ugoto s k (UWkIn (Nat.eqb (sleepers s) 1))).
    { inversion Hs; subst; unfold upc_of in *; try congruence; try reflexivity; contradiction. }
  subst s'. eapply SIG.
    + unfold upc_of; cbn [ugoto upcs]. eapply nth_upd_eq; eauto.
    + unfold upc_of; cbn [ugoto upcs]. rewrite nth_upd_neq by auto. exact Hw.
    + intros t p Ht Wp. unfold upc_of in Ht; cbn [ugoto upcs] in Ht.
      destruct (nth_upd _ _ _ _ _ _ K Ht) as [[-> ->]|[_ K']]; [discriminate|eapply OW; eauto].
Qed.
Print Assumptions umtx_sleeper_is_woken.

(** Limit.  Unlike on Linux, a wait() can miss a wake that has fully taken
    effect before the wait gave up: the kernel clears the waiters bit after
    counting the sleepers, so a waiter that timed out in between finds the word
    changed under its compare-exchange and reports failure although the wake is
    pending and nobody else took it.  The wake is not lost: the next wait gets it. *)
Theorem umtx_wait_may_miss :
  exists h s, urun true (uinit 2) h s /\ clean h /\ only_waiter 1 h /\
    In (RetWait 1 false) h /\ wakes_called h = 1 /\ waits_true h = 0 /\
    (exists h1, h = h1 ++ [RetWait 1 false] /\ wakes_returned h1 = 1) /\
    exists s', urun true s [CallWait 1; Tau 1; Tau 1; RetWait 1 true] s'.
Proof.
  exists [CallWait 1; Tau 1; Tau 1; CallWake 0; Tau 0; Tau 0; Tau 1; Tau 1; Tau 0; RetWake 0; Tau 1; RetWait 1 false], (USem 1 [UIdle; UIdle]).
  split; [|split; [|split; [|split; [|split; [|split; [|split]]]]]].
  - unfold uinit. cbn [repeat].
    eapply urun_cons. { apply u_call_wait. reflexivity. } cbn [ugoto ugoto_set upcs word upd].
    eapply urun_cons. { apply u_load1; [reflexivity|vm_compute; discriminate]. } vm_compute (uafter_load _ _ _ _). cbn [ugoto ugoto_set upcs word upd].
    eapply urun_cons. { apply u_kernel_wait; reflexivity. } cbn [ugoto ugoto_set upcs word upd].
    eapply urun_cons. { apply u_call_wake; reflexivity. } cbn [ugoto ugoto_set upcs word upd].
    eapply urun_cons. { apply u_fetch; reflexivity. } cbn [ugoto ugoto_set upcs word upd]. vm_compute (waiters _). vm_compute (_ mod _)%Z.
    eapply urun_cons. { apply u_kernel_wake; [reflexivity..|vm_compute; discriminate]. } cbn [ugoto ugoto_set upcs word upd]. vm_compute (Nat.eqb _ _).
    eapply urun_cons. { apply u_timeout. reflexivity. } cbn [ugoto ugoto_set upcs word upd].
    eapply urun_cons. { apply u_load2; [reflexivity|vm_compute; discriminate]. } vm_compute (uafter_load _ _ _ _). cbn [ugoto ugoto_set upcs word upd].
    eapply urun_cons. { eapply u_signal_none; reflexivity. } cbn [ugoto ugoto_set upcs word upd]. vm_compute (ucount _).
    eapply urun_cons. { apply u_ret_wake; reflexivity. } cbn [ugoto ugoto_set upcs word upd].
    eapply urun_cons. { eapply u_cas2_fail; [reflexivity|vm_compute; discriminate]. } cbn [ugoto ugoto_set upcs word upd].
    eapply urun_cons. { apply u_ret_wait. reflexivity. } cbn [ugoto ugoto_set upcs word upd].
    constructor.
  - intros e H. cbn in H. intuition (subst; reflexivity).
  - intros t H. cbn in H. intuition (try discriminate). congruence.
  - cbn. intuition.
  - reflexivity.
  - reflexivity.
  - eexists [_;_;_;_;_;_;_;_;_;_;_]. split; reflexivity.
  - eexists.
    eapply urun_cons. { apply u_call_wait. reflexivity. } cbn [ugoto ugoto_set upcs word upd].
    eapply urun_cons. { apply u_load1; [reflexivity|vm_compute; discriminate]. } vm_compute (uafter_load _ _ _ _). cbn [ugoto ugoto_set upcs word upd].
    eapply urun_cons. { eapply u_cas1; reflexivity. } cbn [ugoto ugoto_set upcs word upd].
    eapply urun_cons. { apply u_ret_wait. reflexivity. }
    constructor.
Qed.
Print Assumptions umtx_wait_may_miss.

(** Whatever word with a non-zero count the sandbox leaves, the host's next wake
    aborts the host. *)
Theorem umtx_corrupt_wake_aborts : forall debug s v t,
  (0 <= v < 4294967296)%Z -> (v mod 2147483648 <> 0)%Z -> upc_of s t = Some UIdle ->
  exists s1 s2 s3,
    ustep debug s (Corrupt v) s1 /\ ustep debug s1 (CallWake t) s2 /\ ustep debug s2 (Die t) s3 /\
    upc_of s3 t = Some UDead /\
    forall e s', ustep debug s2 e s' -> e = Tau t \/ e = RetWake t \/ e = Die t -> e = Die t.
Proof.
  intros debug s v t Hv Hn Hp. unfold upc_of in Hp.
  set (s2 := ugoto (USem v (upcs s)) t UWkStart).
  assert (Hq : upc_of s2 t = Some UWkStart) by (unfold upc_of; simpl; eapply nth_upd_eq; eauto).
  exists (USem v (upcs s)), s2, (ugoto_set s2 ((word s2 + 1) mod W32) t UDead).
  split; [apply u_corrupt; exact Hv|]. split; [apply u_call_wake; exact Hp|].
  split; [apply u_fetch_abort; auto; exact Hn|]. split; [unfold upc_of in *; cbn [ugoto_set upcs]; eapply nth_upd_eq; eauto|].
  intros e s' Hs [-> |[-> | ->]]; auto; inversion Hs; subst; try congruence.
  exfalso. match goal with [Z : ucount (word s2) = 0%Z |- _] => exact (Hn Z) end.
Qed.
Print Assumptions umtx_corrupt_wake_aborts.

(** A count above one is a supply of wake-ups nobody sent: in a release build a
    wait succeeds and leaves the word one smaller; in a debug build the host
    aborts. *)
Theorem umtx_corrupt_free_tokens : forall s w,
  (word s mod 2147483648 <> 0)%Z -> upc_of s w = Some UIdle ->
  urun false s [CallWait w; Tau w; Tau w; RetWait w true] (USem (word s - 1) (upd (upcs s) w UIdle))
  /\ ((word s mod 2147483648 <> 1)%Z -> exists s', urun true s [CallWait w; Die w] s').
Proof.
  intros s w Hf Hp. unfold upc_of in Hp.
  assert (UU : forall (l : list upc) i a b, upd (upd l i a) i b = upd l i b).
  { induction l; intros [|i] x y; simpl; f_equal; auto. }
  assert (P : forall y, nth_error (upd (upcs s) w y) w = Some y) by (intros; eapply nth_upd_eq; eauto).
  assert (G : (0 < ucount (word s))%Z) by (unfold ucount, HAS; pose proof (Z.mod_pos_bound (word s) 2147483648); lia).
  assert (L : forall c no, uafter_load false (word s) c no = c (word s)).
  { intros. unfold uafter_load. destruct (Z.ltb_spec 0 (ucount (word s))); [reflexivity|lia]. }
  split.
  - eapply urun_cons. { apply u_call_wait. exact Hp. }
    eapply urun_cons. { apply u_load1; [apply P|]. cbn [ugoto word]. rewrite L. discriminate. }
    cbn [ugoto word upcs]. rewrite L.
    eapply urun_cons. { apply u_cas1 with (f := word s); [|reflexivity]. unfold upc_of; cbn [ugoto upcs]. rewrite UU. apply P. }
    eapply urun_cons. { apply u_ret_wait. unfold upc_of; cbn [ugoto ugoto_set upcs]. rewrite !UU. apply P. }
    unfold ugoto, ugoto_set; cbn [upcs word]. rewrite !UU. constructor.
  - intros Hn. eexists.
    eapply urun_cons. { apply u_call_wait. exact Hp. }
    eapply urun_cons; [|constructor].
    apply u_load1_die; [apply P|]. cbn [ugoto word]. unfold uafter_load.
    destruct (Z.ltb_spec 0 (ucount (word s))); [|lia]. destruct (Z.eqb_spec (ucount (word s)) 1); [exact (match Hn e with end)|reflexivity].
Qed.
Print Assumptions umtx_corrupt_free_tokens.

(** A sandbox that clears the waiters bit while the host sleeps makes an honest
    wake skip the kernel: the host is left asleep (until its time-out) with the
    wake pending and returned. *)
Theorem umtx_corrupt_cancels_signal : forall debug s w t,
  upc_of s w = Some USleeping -> upc_of s t = Some UIdle ->
  exists s', urun debug s [Corrupt 0; CallWake t; Tau t; RetWake t] s'
    /\ upc_of s' w = Some USleeping /\ word s' = 1%Z.
Proof.
  intros debug s w t Hw Ht. unfold upc_of in *. assert (NE : t <> w) by (intros ->; congruence).
  assert (UU : forall (l : list upc) i a b, upd (upd l i a) i b = upd l i b).
  { induction l; intros [|i] x y; simpl; f_equal; auto. }
  assert (P : forall y, nth_error (upd (upcs s) t y) t = Some y) by (intros; eapply nth_upd_eq; eauto).
  exists (USem 1 (upd (upcs s) t UIdle)). split.
  - eapply urun_cons. { apply (u_corrupt debug s 0). vm_compute. split; [discriminate|reflexivity]. }
    eapply urun_cons. { apply u_call_wake. exact Ht. }
    eapply urun_cons. { apply u_fetch; [apply P|reflexivity]. }
    cbn [ugoto ugoto_set upcs word]. vm_compute (waiters _). vm_compute (_ mod _)%Z. cbv iota. unfold ugoto, ugoto_set; cbn [upcs word]. rewrite UU.
    eapply urun_cons. { apply u_ret_wake. apply P. }
    unfold ugoto; cbn [upcs word]. rewrite UU. constructor.
  - split; [|reflexivity]. cbn [upc_of upcs]. rewrite nth_upd_neq by auto. exact Hw.
Qed.
Print Assumptions umtx_corrupt_cancels_signal.

(** A history that meets the hypotheses: thread 1 sleeps, thread 0 wakes it, it
    takes the token; a second wake returns while it is outside. *)
Definition umtx_history :=
  [CallWait 1; Tau 1; Tau 1; CallWake 0; Tau 0; Tau 0; Tau 0; RetWake 0; Tau 1; Tau 1; RetWait 1 true; CallWake 0; Tau 0; RetWake 0].
Example umtx_ex : exists s, urun false (uinit 2) umtx_history s /\ clean umtx_history
  /\ only_waiter 1 umtx_history /\ waits_true umtx_history < wakes_returned umtx_history
  /\ upc_of s 1 = Some UIdle /\ word s = 1%Z.
Proof.
  exists (USem 1 [UIdle; UIdle]). split; [|split; [|split; [|split; [cbn; lia|split; reflexivity]]]].
  - unfold umtx_history, uinit. cbn [repeat].
    eapply urun_cons. { apply u_call_wait. reflexivity. } cbn [ugoto ugoto_set upcs word upd].
    eapply urun_cons. { apply u_load1; [reflexivity|vm_compute; discriminate]. } vm_compute (uafter_load _ _ _ _). cbn [ugoto ugoto_set upcs word upd].
    eapply urun_cons. { apply u_kernel_wait; reflexivity. } cbn [ugoto ugoto_set upcs word upd].
    eapply urun_cons. { apply u_call_wake; reflexivity. } cbn [ugoto ugoto_set upcs word upd].
    eapply urun_cons. { apply u_fetch; reflexivity. } cbn [ugoto ugoto_set upcs word upd]. vm_compute (waiters _). vm_compute (_ mod _)%Z.
    eapply urun_cons. { apply u_kernel_wake; [reflexivity..|vm_compute; discriminate]. } cbn [ugoto ugoto_set upcs word upd]. vm_compute (Nat.eqb _ _).
    eapply urun_cons. { eapply u_signal with (w := 1); reflexivity. } cbn [ugoto ugoto_set upcs word upd]. vm_compute (ucount _).
    eapply urun_cons. { apply u_ret_wake; reflexivity. } cbn [ugoto ugoto_set upcs word upd].
    eapply urun_cons. { apply u_load2; [reflexivity|vm_compute; discriminate]. } vm_compute (uafter_load _ _ _ _). cbn [ugoto ugoto_set upcs word upd].
    eapply urun_cons. { eapply u_cas2; reflexivity. } cbn [ugoto ugoto_set upcs word upd].
    eapply urun_cons. { apply u_ret_wait. reflexivity. } cbn [ugoto ugoto_set upcs word upd].
    eapply urun_cons. { apply u_call_wake; reflexivity. } cbn [ugoto ugoto_set upcs word upd].
    eapply urun_cons. { apply u_fetch; reflexivity. } cbn [ugoto ugoto_set upcs word upd]. vm_compute (waiters _). vm_compute (_ mod _)%Z.
    eapply urun_cons. { apply u_ret_wake; reflexivity. } cbn [ugoto ugoto_set upcs word upd].
    constructor.
  - intros e H. cbn in H. intuition (subst; reflexivity).
  - intros t H. cbn in H. intuition (try discriminate). congruence.
Qed.

(** Thread 1 asleep with thread 0's wake pending. *)
Example umtx_ex_sleeper : exists h s, urun false (uinit 2) h s /\ clean h /\ only_waiter 1 h
  /\ upc_of s 1 = Some USleeping /\ ucount (word s) = 1%Z.
Proof.
  exists [CallWait 1; Tau 1; Tau 1; CallWake 0; Tau 0], (USem (HAS + 1) [UWkCall; USleeping]).
  split; [|split; [|split; [|split; reflexivity]]].
  - unfold uinit. cbn [repeat].
    eapply urun_cons. { apply u_call_wait. reflexivity. } cbn [ugoto ugoto_set upcs word upd].
    eapply urun_cons. { apply u_load1; [reflexivity|vm_compute; discriminate]. } vm_compute (uafter_load _ _ _ _). cbn [ugoto ugoto_set upcs word upd].
    eapply urun_cons. { apply u_kernel_wait; reflexivity. } cbn [ugoto ugoto_set upcs word upd].
    eapply urun_cons. { apply u_call_wake; reflexivity. } cbn [ugoto ugoto_set upcs word upd].
    eapply urun_cons. { apply u_fetch; reflexivity. } cbn [ugoto ugoto_set upcs word upd].
    constructor.
  - intros e H. cbn in H. intuition (subst; reflexivity).
  - intros t H. cbn in H. intuition (try discriminate). congruence.
Qed.
