(** The claimed theorems about the one-bit semaphore (C30, C31). *)
From Coq Require Import List ZArith Bool Arith Lia.
From Verif Require Import SemModel SemSpec SemProof.
Import ListNotations.
Local Open Scope nat_scope.

(** ** C30 *)

(** A wait that reports success consumed a wake and no wake is consumed twice:
    in every history of every number of threads, there are at most as many
    successful waits as wakes before them.  When all threads are outside the
    semaphore's functions the word holds exactly the unconsumed wakes, at most
    one. *)
Theorem sem_wakes_consumed_once debug n h s :
  run debug (init n) h s -> clean h ->
  waits_true h <= wakes_called h
  /\ ((forall t p, pc_of s t = Some p -> p = Idle) ->
      flag s = Z.of_nat (wakes_called h - waits_true h) /\ wakes_called h <= waits_true h + 1).
Proof.
  intros R C. destruct (J_run _ _ _ _ R C) as [Jf Jc Jt _ _]. split; [lia|].
  intros Hi.
  assert (Z0 : forall p, p Idle = false -> cnt p (pcs s) = 0).
  { intros p Hp. unfold pc_of in Hi. unfold cnt.
    assert (G : forall q, In q (pcs s) -> q = Idle).
    { intros q Hq. apply In_nth_error in Hq as [k Hk]. eauto. }
    clear -G Hp. induction (pcs s) as [|a l IH]; simpl; auto.
    rewrite (G a) by (left; auto). rewrite Hp. apply IH. intros; apply G; right; auto. }
  rewrite (Z0 pTrue), (Z0 pStart) in Jt by reflexivity.
  destruct Jf as [E|E]; rewrite E in *; cbn in Jt; split; lia.
Qed.

(** If callers never wake while an earlier wake is unconsumed, no process is
    ever aborted by the semaphore. *)
Theorem sem_no_abort debug n h s :
  run debug (init n) h s ->
  (forall h1 h2, h = h1 ++ h2 -> wakes_called h1 <= waits_true h1 + 1) ->
  (forall v, ~ In (Corrupt v) h) ->
  forall t, ~ In (Die t) h.
Proof.
  intros R D N. cut (clean h).
  { intros C t Ht. specialize (C _ Ht). discriminate. }
  remember (init n) as s0 eqn:E. induction R as [|s0 h s1 e s2 R IH Hs].
  - intros e [].
  - assert (C : clean h).
    { apply IH; auto.
      - intros h1 h2 ->. apply (D h1 (h2 ++ [e])). rewrite app_assoc. reflexivity.
      - intros v Hv. apply (N v). apply in_or_app; auto. }
    apply clean_app. split; auto. intros x [<-|[]].
    subst s0. destruct (J_run _ _ _ _ R C) as [Jf Jc Jt Js _].
    inversion Hs; subst; try reflexivity; exfalso.
    + specialize (D h _ eq_refl). destruct Jf as [Jf|Jf]; [contradiction|].
      pose proof (cnt_upd pStart _ _ _ Idle H) as K. cbn in K.
      rewrite Jf in Jt. change (Z.to_nat 1) with 1 in Jt. lia.
    + rewrite after_load_cases in H0 by auto. destruct (Z.eqb _ _); discriminate.
    + rewrite after_load_cases in H0 by auto. destruct (Z.eqb _ _); discriminate.
    + apply (N v). apply in_or_app; right; left; auto.
Qed.

(** With a single waiting thread, a wake that has returned and has not been
    consumed never leaves that thread asleep in the kernel. *)
Theorem sem_no_lost_wakeup debug n h s w :
  run debug (init n) h s -> clean h -> only_waiter w h ->
  waits_true h < wakes_returned h ->
  pc_of s w <> Some Sleeping.
Proof.
  intros R C O P Hw. pose proof (waiter_pc _ _ _ _ _ R C O) as OW.
  destruct (J_run _ _ _ _ R C) as [Jf Jc Jt Js Jl].
  assert (T0 : cnt pTrue (pcs s) = 0).
  { unfold cnt. destruct (filter pTrue (pcs s)) as [|x l] eqn:F; auto. exfalso.
    assert (I : In x (filter pTrue (pcs s))) by (rewrite F; left; auto).
    apply filter_In in I as [I1 I2]. apply In_nth_error in I1 as [k Hk].
    assert (k = w) by (apply (OW k x); [exact Hk|destruct x; try discriminate; reflexivity]).
    subst k. unfold pc_of in Hw. rewrite Hk in Hw. injection Hw as ->. discriminate. }
  rewrite T0 in Jt.
  destruct Jf as [E|E]; rewrite E in Jt; [change (Z.to_nat 0) with 0 in Jt|change (Z.to_nat 1) with 1 in Jt]; [lia|].
  destruct (Jl w E Hw) as [k [K|[K|K]]].
  - pose proof (cnt_upd pFetched _ _ _ Idle K) as G. cbn in G. lia.
  - assert (k = w) by (eapply OW; [exact K|reflexivity]). subst. congruence.
  - assert (k = w) by (eapply OW; [exact K|reflexivity]). subst. congruence.
Qed.

(** ... and a wait() that starts in that situation never sleeps and returns
    true. *)
Theorem sem_pending_wait_succeeds debug n h1 s1 w s2 h2 s3 :
  run debug (init n) h1 s1 -> step debug s1 (CallWait w) s2 -> run debug s2 h2 s3 ->
  clean (h1 ++ CallWait w :: h2) -> only_waiter w (h1 ++ CallWait w :: h2) ->
  ~ In (CallWait w) h2 ->
  waits_true h1 < wakes_returned h1 ->
  pc_of s3 w <> Some Sleeping /\ forall b, In (RetWait w b) h2 -> b = true.
Proof.
  intros R1 S1 R2 C O N P.
  cut ((pc_of s3 w = Some Try1 /\ flag s3 = 1%Z /\ (forall b, ~ In (RetWait w b) h2))
    \/ (pc_of s3 w = Some (Try1c 1) /\ flag s3 = 1%Z /\ (forall b, ~ In (RetWait w b) h2))
    \/ (pc_of s3 w = Some (RetWith true) /\ forall b, ~ In (RetWait w b) h2)
    \/ ((forall p, pc_of s3 w = Some p -> waitpc p = false) /\
        forall b, In (RetWait w b) h2 -> b = true)).
  { intros [[A [_ B]]|[[A [_ B]]|[[A B]|[A B]]]].
    - split; [congruence|]. intros b Hb. destruct (B b Hb).
    - split; [congruence|]. intros b Hb. destruct (B b Hb).
    - split; [congruence|]. intros b Hb. destruct (B b Hb).
    - split; auto. intros E. specialize (A _ E). discriminate. }
  induction R2 as [s2|s2 h2 s3 e s4 R2 IH Hs].
  - left. split; [|split; [|intros b []]].
    + inversion S1; subst. unfold pc_of in *; simpl. eapply nth_upd_eq; eauto.
    + assert (C1 : clean h1) by (apply clean_app in C as [C _]; exact C).
      assert (O1 : only_waiter w h1) by (intros t Ht; apply O, in_or_app; auto).
      assert (Hi : pc_of s1 w = Some Idle) by (inversion S1; auto).
      assert (flag s2 = flag s1) as -> by (inversion S1; auto).
      pose proof (waiter_pc _ _ _ _ _ R1 C1 O1) as OW.
      destruct (J_run _ _ _ _ R1 C1) as [Jf Jc Jt Js Jl].
      assert (T0 : cnt pTrue (pcs s1) = 0).
      { unfold cnt. destruct (filter pTrue (pcs s1)) as [|x l] eqn:F; auto. exfalso.
        assert (I : In x (filter pTrue (pcs s1))) by (rewrite F; left; auto).
        apply filter_In in I as [I1 I2]. apply In_nth_error in I1 as [k Hk].
        assert (k = w) by (apply (OW k x); [exact Hk|destruct x; try discriminate; reflexivity]).
        subst k. unfold pc_of in Hi. rewrite Hk in Hi. injection Hi as ->. discriminate. }
      destruct Jf as [E|E]; auto. rewrite E, T0 in Jt. change (Z.to_nat 0) with 0 in Jt. lia.
  - assert (C' : clean (h1 ++ CallWait w :: h2)).
    { intros x Hx. apply C. apply in_app_or in Hx as [Hx|[Hx|Hx]]; apply in_or_app; auto.
      - right; left; auto.
      - right; right; apply in_or_app; auto. }
    assert (Cs : clean ((h1 ++ CallWait w :: h2) ++ [e])) by (rewrite <- app_assoc; exact C).
    assert (Os : only_waiter w ((h1 ++ CallWait w :: h2) ++ [e])) by (rewrite <- app_assoc; exact O).
    assert (RR : run debug (init n) (h1 ++ CallWait w :: h2) s3).
    { replace (h1 ++ CallWait w :: h2) with ((h1 ++ [CallWait w]) ++ h2)
        by (rewrite <- app_assoc; reflexivity).
      eapply run_app; [|exact R2]. eapply run_snoc; eauto. }
    pose proof (only_snoc _ _ _ Os) as O'.
    assert (Ef : is_fault e = false) by (apply clean_snoc in Cs; tauto).
    assert (Nw : e <> CallWait w).
    { intros ->. apply N. apply in_or_app; right; left; auto. }
    pose proof (waiter_pc _ _ _ _ _ RR C' O') as OW.
    pose proof (waiter_pc _ _ _ _ _ (run_snoc _ _ _ _ _ _ RR Hs) Cs Os) as OW2.
    pose proof (J_run _ _ _ _ RR C') as [Jf Jc Jt Js Jl].
    specialize (IH S1 C' O' (fun H => N (in_or_app _ _ _ (or_introl H)))).
    assert (NR : forall b, In (RetWait w b) (h2 ++ [e]) ->
       In (RetWait w b) h2 \/ e = RetWait w b).
    { intros b Hb. apply in_app_or in Hb as [Hb|[Hb|[]]]; auto. }
    destruct IH as [[A [B D]]|[[A [B D]]|[[A D]|[A D]]]].
    + assert (NR' : (forall b, e <> RetWait w b) -> forall b, ~ In (RetWait w b) (h2 ++ [e])).
      { intros X b Hb. destruct (NR b Hb) as [Hb'| ->]; [exact (D b Hb')|exact (X b eq_refl)]. }
      inversion Hs; subst; simpl in Ef; try discriminate;
        try (match goal with [H : pc_of s3 ?t = Some ?x |- _] =>
          destruct (Nat.eq_dec t w) as [->|Ne];
          [try (rewrite A in H; discriminate H)
          |left; unfold pc_of in *; simpl; rewrite nth_upd_neq by auto;
           split; [exact A|split; [auto|apply NR'; intros; congruence]]] end; fail).
      * exfalso. congruence.
      * left. unfold pc_of in *; simpl.
        assert (t <> w /\ w0 <> w) as [N1 N2] by (split; intros ->; congruence).
        rewrite nth_upd_neq, nth_upd_neq by auto. split; [exact A|split; auto].
        apply NR'; intros; congruence.
      * destruct (Nat.eq_dec t w) as [->|Ne].
        -- right; left. rewrite B. rewrite after_load_cases by auto.
           unfold pc_of in *; simpl. split; [eapply nth_upd_eq; eauto|split; auto].
           apply NR'; intros; congruence.
        -- exfalso. apply Ne. apply (OW _ _ H). reflexivity.
      * exfalso. assert (t = w) by (apply (OW _ _ H); reflexivity). subst. congruence.
      * exfalso. assert (t = w) by (apply (OW _ _ H); reflexivity). subst. congruence.
    + assert (NR' : (forall b, e <> RetWait w b) -> forall b, ~ In (RetWait w b) (h2 ++ [e])).
      { intros X b Hb. destruct (NR b Hb) as [Hb'| ->]; [exact (D b Hb')|exact (X b eq_refl)]. }
      inversion Hs; subst; simpl in Ef; try discriminate;
        try (match goal with [H : pc_of s3 ?t = Some ?x |- _] =>
          destruct (Nat.eq_dec t w) as [->|Ne];
          [try (rewrite A in H; discriminate H)
          |right; left; unfold pc_of in *; simpl; rewrite nth_upd_neq by auto;
           split; [exact A|split; [auto|apply NR'; intros; congruence]]] end; fail).
      * exfalso. congruence.
      * right; left. unfold pc_of in *; simpl.
        assert (t <> w /\ w0 <> w) as [N1 N2] by (split; intros ->; congruence).
        rewrite nth_upd_neq, nth_upd_neq by auto. split; [exact A|split; auto].
        apply NR'; intros; congruence.
      * assert (t = w) by (apply (OW _ _ H); reflexivity). subst.
        right; right; left. unfold pc_of in *; simpl. split; [eapply nth_upd_eq; eauto|].
        apply NR'; intros; congruence.
      * exfalso. assert (t = w) by (apply (OW _ _ H); reflexivity). subst.
        rewrite A in H. injection H as <-. congruence.
      * exfalso. assert (t = w) by (apply (OW _ _ H); reflexivity). subst. congruence.
    + destruct (other_step _ _ _ _ _ _ Hs A) as [K|[[K _]|[q [K L]]]]; [|discriminate|].
      * right; right; left. split; auto. intros b Hb.
        destruct (NR b Hb) as [Hb'| ->]; [exact (D b Hb')|].
        inversion Hs; subst. unfold pc_of, goto in K; simpl in K.
        rewrite (nth_upd_eq _ _ _ _ H3) in K. discriminate.
      * right; right; right.
        assert (e = RetWait w true) as ->.
        { destruct L as [-> |[-> |[-> |[-> |[-> |[-> |[b ->]]]]]]]; inversion Hs; subst; try congruence. }
        inversion Hs; subst. split.
        -- intros p Hp. unfold pc_of, goto in Hp; simpl in Hp.
           rewrite (nth_upd_eq _ _ _ _ A) in Hp. injection Hp as <-. reflexivity.
        -- intros b Hb. destruct (NR b Hb) as [Hb'|X]; [destruct (D b Hb')|congruence].
    + right; right; right.
      assert (Eb : forall b, e <> RetWait w b).
      { intros b ->. inversion Hs; subst.
        match goal with [H : pc_of s3 w = Some _ |- _] => specialize (A _ H) end. discriminate. }
      split.
      * intros p Hp. destruct (waitpc p) eqn:Wp; auto. exfalso.
        destruct (pc_of s3 w) as [p0|] eqn:P0.
        -- specialize (A _ eq_refl).
           destruct (other_step _ _ _ _ _ _ Hs P0) as [K|[[-> _]|[q [K L]]]].
           ++ rewrite Hp in K. injection K as ->. congruence.
           ++ discriminate.
           ++ destruct L as [-> |[-> |[-> |[-> |[-> |[-> |[b ->]]]]]]];
              try (inversion Hs; subst; congruence);
              try (apply Nw; reflexivity); try discriminate;
              try (inversion Hs; subst;
                match goal with [H : pc_of s3 w = Some _ |- _] =>
                  rewrite P0 in H; injection H as ->; try discriminate end;
                unfold pc_of in *; simpl in Hp;
                try (rewrite (nth_upd_eq _ _ _ _ P0) in Hp; injection Hp as <-; discriminate));
              try (rewrite nth_upd_eq with (x := WkFetched) in Hp;
                 [injection Hp as <-; discriminate
                 |rewrite nth_upd_neq; [exact P0|intros ->; congruence]]).
        -- inversion Hs; subst; unfold pc_of in *; simpl in Hp; try discriminate;
           try (match goal with [H : nth_error (pcs s3) ?t = Some ?x, Hp : nth_error (upd _ ?t _) w = _ |- _] =>
             destruct (nth_upd _ _ _ _ _ _ H Hp) as [[-> _]|[_ K]]; congruence end).
           assert (Ne : w0 <> t) by (intros ->; congruence).
           assert (Ht : nth_error (upd (pcs s3) w0 Try2) t = Some WkFetched)
             by (rewrite nth_upd_neq; auto).
           destruct (nth_upd _ _ _ _ _ _ Ht Hp) as [[-> _]|[_ K]]; [congruence|].
           destruct (nth_upd _ _ _ _ _ _ H0 K) as [[-> _]|[_ K']]; congruence.
      * intros b Hb. destruct (NR b Hb) as [Hb'|X]; [eauto|destruct (Eb b X)].
Qed.

(** A single waiter that is asleep while a wake has taken effect is about to be
    woken: the waking thread is between its update of the word and its kernel
    call, and that call can only wake this waiter. *)
Theorem sem_sleeper_is_woken debug n h s w :
  run debug (init n) h s -> clean h -> only_waiter w h ->
  pc_of s w = Some Sleeping -> flag s = 1%Z ->
  exists k, pc_of s k = Some WkFetched /\
    (exists s', step debug s (Tau k) s') /\
    forall s', step debug s (Tau k) s' -> pc_of s' w = Some Try2.
Proof.
  intros R C O Hw E. pose proof (waiter_pc _ _ _ _ _ R C O) as OW.
  destruct (J_run _ _ _ _ R C) as [Jf Jc Jt Js Jl].
  destruct (Jl w E Hw) as [k [K|[K|K]]];
    try (assert (k = w) by (eapply OW; [exact K|reflexivity]); subst; congruence).
  exists k. split; [exact K|]. split.
  - eexists. apply s_futex_wake; eauto.
  - intros s' Hs. inversion Hs; subst; try congruence.
    + assert (w0 = w) by (eapply OW; eauto). subst w0.
      unfold pc_of in *; simpl. rewrite nth_upd_neq by (intros ->; congruence).
      eapply nth_upd_eq; eauto.
    + exfalso. match goal with [H : ~ In Sleeping _ |- _] => apply H end.
      eapply nth_error_In; eauto.
Qed.

(** With any number of waiters, while a wake is unconsumed and some waiter
    sleeps, some thread that is not asleep is still on its way to pass the wake
    on or to take it. *)
Theorem sem_wake_in_transit debug n h s t :
  run debug (init n) h s -> clean h ->
  flag s = 1%Z -> pc_of s t = Some Sleeping ->
  exists k, pc_of s k = Some WkFetched \/ pc_of s k = Some Try2 \/ pc_of s k = Some (Try2c 1).
Proof. intros R C E Ht. exact (j_sleep _ _ (J_run _ _ _ _ R C) t E Ht). Qed.

(** wait() never blocks for ever: the waiting thread always has a step of its
    own (its time-out if nothing else), and unless signals keep interrupting it
    it makes at most six internal steps before it returns. *)
Theorem sem_wait_progress debug s w p :
  pc_of s w = Some p -> waitpc p = true ->
  exists e s', step debug s e s' /\ (e = Tau w \/ e = Die w \/ exists b, e = RetWait w b).
Proof.
  intros Hp Hw. destruct p; try discriminate.
  - destruct (after_load debug (flag s) Try1c FWait) eqn:E;
      try (eexists _, _; split; [eapply s_load1; eauto; congruence|auto]; fail).
    eexists _, _; split; [eapply s_load1_die; eauto|auto].
  - destruct (Z.eq_dec (flag s) f) as [E|E].
    + eexists _, _; split; [eapply s_cas1; eauto|auto].
    + eexists _, _; split; [eapply s_cas1_fail; eauto|auto].
  - destruct (Z.eq_dec (flag s) 0) as [E|E].
    + eexists _, _; split; [eapply s_wait_sleep; eauto|auto].
    + eexists _, _; split; [eapply s_wait_again; eauto|auto].
  - eexists _, _; split; [eapply s_timeout; eauto|auto].
  - destruct (after_load debug (flag s) Try2c (RetWith false)) eqn:E;
      try (eexists _, _; split; [eapply s_load2; eauto; congruence|auto]; fail).
    eexists _, _; split; [eapply s_load2_die; eauto|auto].
  - destruct (Z.eq_dec (flag s) f) as [E|E].
    + eexists _, _; split; [eapply s_cas2; eauto|auto].
    + eexists _, _; split; [eapply s_cas2_fail; eauto|auto].
  - eexists _, _; split; [eapply s_ret_wait; eauto|eauto].
Qed.

Definition is_tau (w : nat) e := match e with Tau t => Nat.eqb t w | _ => false end.
Definition rank p := match p with
  | Try1 => 6 | Try1c _ => 5 | FWait => 4 | Sleeping => 3 | Try2 => 2 | Try2c _ => 1 | _ => 0 end.

Theorem sem_wait_bounded debug s w p h s' :
  run debug s h s' -> pc_of s w = Some p -> waitpc p = true ->
  ~ In (Interrupted w) h -> (forall b, ~ In (RetWait w b) h) ->
  count (is_tau w) h <= 6.
Proof.
  intros R Hp Hw NI NR.
  cut (exists q, pc_of s' w = Some q /\ (waitpc q = true \/ q = Dead) /\
        count (is_tau w) h + rank q <= 6).
  { intros [q [_ [_ B]]]. lia. }
  induction R as [s|s h s1 e s2 R IH Hs].
  - exists p. split; auto. split; auto. destruct p; cbn; lia.
  - destruct IH as [q [Hq [Wq Bq]]]; auto.
    { intros X. apply NI, in_or_app; auto. }
    { intros b X. apply (NR b), in_or_app; auto. }
    rewrite count_snoc.
    assert (Ne : e <> Interrupted w) by (intros ->; apply NI, in_or_app; right; left; auto).
    assert (Nr : forall b, e <> RetWait w b) by (intros b ->; apply (NR b), in_or_app; right; left; auto).
    clear R Hp NI NR.
    inversion Hs; subst; unfold pc_of in *; cbn [pcs goto goto_set];
      try (match goal with [H : nth_error (pcs s1) ?t = Some ?x |- context[upd (pcs s1) ?t ?y]] =>
      destruct (Nat.eq_dec t w) as [->|N1];
      [exists y; split; [eapply nth_upd_eq; eauto|];
       rewrite Hq in H; injection H as ->; cbn [is_tau rank b2n] in *; rewrite ?Nat.eqb_refl; cbn;
       try (exfalso; destruct Wq; discriminate); try congruence;
       try (split; [solve [auto]|cbn in Bq; lia])
      |exists q; simpl; rewrite nth_upd_neq by auto; split; [exact Hq|split; [exact Wq|]];
       cbn [is_tau b2n]; rewrite ?(proj2 (Nat.eqb_neq t w) N1); cbn; lia] end; fail).
    + (* futex wake *)
      assert (Nt : t <> w).
      { intros ->. rewrite Hq in H. injection H as ->. destruct Wq; discriminate. }
      cbn [is_tau b2n]. rewrite (proj2 (Nat.eqb_neq t w) Nt). cbn. rewrite nth_upd_neq by auto.
      destruct (Nat.eq_dec w0 w) as [->|N2].
      * exists Try2. split; [eapply nth_upd_eq; eauto|]. split; auto.
        rewrite Hq in H0. injection H0 as ->. cbn in *. lia.
      * rewrite nth_upd_neq by auto. exists q. split; auto. split; auto. lia.
    + (* load 1 *)
      destruct (Nat.eq_dec t w) as [->|N1].
      * eexists. split; [simpl; eapply nth_upd_eq; eauto|].
        rewrite Hq in H. injection H as ->. cbn [is_tau]. rewrite Nat.eqb_refl. cbn in *.
        unfold after_load in *. destruct (0 <? flag s1)%Z; [destruct (debug && negb (flag s1 =? 1)%Z)|];
        cbn; split; auto; lia.
      * exists q; simpl; rewrite nth_upd_neq by auto; split; [exact Hq|split; [exact Wq|]].
        cbn [is_tau b2n]. rewrite (proj2 (Nat.eqb_neq t w) N1). cbn. lia.
    + (* load 2 *)
      destruct (Nat.eq_dec t w) as [->|N1].
      * eexists. split; [simpl; eapply nth_upd_eq; eauto|].
        rewrite Hq in H. injection H as ->. cbn [is_tau]. rewrite Nat.eqb_refl. cbn in *.
        unfold after_load in *. destruct (0 <? flag s1)%Z; [destruct (debug && negb (flag s1 =? 1)%Z)|];
        cbn; split; auto; lia.
      * exists q; simpl; rewrite nth_upd_neq by auto; split; [exact Hq|split; [exact Wq|]].
        cbn [is_tau b2n]. rewrite (proj2 (Nat.eqb_neq t w) N1). cbn. lia.
    + exists q. split; [exact Hq|]. split; [exact Wq|]. cbn. lia.
Qed.

(** A history that meets the hypotheses: thread 1 goes to sleep, thread 0 wakes
    it, it takes the token; then a second wake finds it outside. *)
Definition demo_history :=
  [CallWait 1; Tau 1; Tau 1; CallWake 0; Tau 0; Tau 0; RetWake 0; Tau 1; Tau 1; RetWait 1 true;
   CallWake 0; Tau 0; Tau 0; RetWake 0].
Example demo_run : exists s, run false (init 2) demo_history s /\ clean demo_history
  /\ only_waiter 1 demo_history /\ waits_true demo_history < wakes_returned demo_history
  /\ pc_of s 1 = Some Idle.
Proof.
  exists (Sem 1 [Idle; Idle]). split; [|split; [|split; [|split; [cbn; lia|reflexivity]]]].
  - unfold demo_history, init. cbn [repeat].
    assert (cons_run : forall s e s1 h s2, step false s e s1 -> run false s1 h s2 ->
      run false s (e :: h) s2).
    { intros s e s1 h s2 A B. change (e :: h) with ([e] ++ h).
      eapply run_app; [eapply run_one; exact A|exact B]. }
    eapply cons_run. { apply s_call_wait. reflexivity. } cbn.
    eapply cons_run. { apply s_load1; [reflexivity|cbn; discriminate]. } cbn.
    eapply cons_run. { apply s_wait_sleep; reflexivity. } cbn.
    eapply cons_run. { apply s_call_wake; reflexivity. } cbn.
    eapply cons_run. { apply s_fetch; reflexivity. } cbn.
    eapply cons_run. { apply s_futex_wake with (w := 1); reflexivity. } cbn.
    eapply cons_run. { apply s_ret_wake; reflexivity. } cbn.
    eapply cons_run. { apply s_load2; [reflexivity|cbn; discriminate]. } cbn.
    eapply cons_run. { eapply s_cas2; reflexivity. } cbn.
    eapply cons_run. { apply s_ret_wait; reflexivity. } cbn.
    eapply cons_run. { apply s_call_wake; reflexivity. } cbn.
    eapply cons_run. { apply s_fetch; reflexivity. } cbn.
    eapply cons_run. { apply s_futex_wake_none; [reflexivity|cbn; intuition discriminate]. } cbn.
    eapply cons_run. { apply s_ret_wake; reflexivity. } cbn.
    constructor.
  - intros e H. cbn in H. intuition (subst; reflexivity).
  - intros t H. cbn in H. intuition (try discriminate). congruence.
Qed.

(** The state reached when thread 1 sleeps and thread 0 has set the word. *)
Example demo_sleeper : exists h s, run false (init 2) h s /\ clean h /\ only_waiter 1 h
  /\ pc_of s 1 = Some Sleeping /\ flag s = 1%Z.
Proof.
  exists [CallWait 1; Tau 1; Tau 1; CallWake 0; Tau 0], (Sem 1 [WkFetched; Sleeping]).
  split; [|split; [|split; [|split; reflexivity]]].
  - assert (cons_run : forall s e s1 h s2, step false s e s1 -> run false s1 h s2 ->
      run false s (e :: h) s2).
    { intros s e s1 h s2 A B. change (e :: h) with ([e] ++ h).
      eapply run_app; [eapply run_one; exact A|exact B]. }
    unfold init. cbn [repeat].
    eapply cons_run. { apply s_call_wait. reflexivity. } cbn.
    eapply cons_run. { apply s_load1; [reflexivity|cbn; discriminate]. } cbn.
    eapply cons_run. { apply s_wait_sleep; reflexivity. } cbn.
    eapply cons_run. { apply s_call_wake; reflexivity. } cbn.
    eapply cons_run. { apply s_fetch; reflexivity. } cbn.
    constructor.
  - intros e H. cbn in H. intuition (subst; reflexivity).
  - intros t H. cbn in H. intuition (try discriminate). congruence.
Qed.

(** ** C31 *)

(** Whatever non-zero value the sandbox leaves in the word, the host's next
    wake aborts the host: the call can do nothing else.  The word is one more
    afterwards, the largest value becoming the smallest. *)
Theorem sem_corrupt_wake_aborts debug s v t :
  (-2147483648 <= v < 2147483648)%Z -> v <> 0%Z -> pc_of s t = Some Idle ->
  exists s1 s2 s3,
    step debug s (Corrupt v) s1 /\ step debug s1 (CallWake t) s2 /\ step debug s2 (Die t) s3 /\
    pc_of s3 t = Some Dead /\ flag s3 = (if (v =? 2147483647)%Z then -2147483648 else v + 1)%Z /\
    forall e s', step debug s2 e s' ->
      e = Tau t \/ e = RetWake t \/ e = Die t -> e = Die t.
Proof.
  intros Hv Hn Hp.
  exists (Sem v (pcs s)), (goto (Sem v (pcs s)) t WkStart),
    (goto_set (goto (Sem v (pcs s)) t WkStart) (to_int (v + 1)) t Dead).
  assert (Hq : pc_of (goto (Sem v (pcs s)) t WkStart) t = Some WkStart)
    by (unfold pc_of; simpl; eapply nth_upd_eq; eauto).
  repeat split.
  - apply s_corrupt; auto.
  - apply s_call_wake. exact Hp.
  - apply (s_fetch_abort debug (goto (Sem v (pcs s)) t WkStart)); auto.
  - unfold pc_of in *; simpl in *. eapply nth_upd_eq; eauto.
  - cbn [flag goto_set]. unfold to_int, I32. destruct (Z.eqb_spec v 2147483647) as [->|Nv]; [reflexivity|].
    destruct (Z_lt_le_dec (v + 1) 0).
    + rewrite <- (Z.mod_add (v + 1) 1) by lia. rewrite Z.mod_small by lia.
      destruct (Z.ltb_spec (v + 1 + 1 * 4294967296) 2147483648); lia.
    + rewrite Z.mod_small by lia. destruct (Z.ltb_spec (v + 1) 2147483648); lia.
  - intros e s' Hs [-> |[-> | ->]]; auto; inversion Hs; subst; try congruence;
    simpl in *; congruence.
Qed.

(** A negative value turns the host's wait into a busy loop: with nobody else
    touching the word, wait never sleeps and never succeeds. *)
Theorem sem_corrupt_negative_spins debug s w h s' :
  (flag s < 0)%Z -> pc_of s w = Some Idle -> run debug s h s' ->
  (forall e, In e h -> e = CallWait w \/ e = Tau w \/ exists b, e = RetWait w b) ->
  flag s' = flag s /\ pc_of s' w <> Some Sleeping /\ ~ In (RetWait w true) h.
Proof.
  intros Hf Hp R A.
  cut (flag s' = flag s /\ ~ In (RetWait w true) h /\
    (pc_of s' w = Some Idle \/ pc_of s' w = Some Try1 \/ pc_of s' w = Some FWait
     \/ pc_of s' w = Some Try2 \/ pc_of s' w = Some (RetWith false))).
  { intros [B [C D]]. split; auto. split; auto. intros E. rewrite E in D.
    intuition discriminate. }
  induction R as [s|s h s1 e s2 R IH Hs].
  - split; auto.
  - destruct IH as [B [C D]]; auto.
    { intros x Hx. apply A, in_or_app; auto. }
    assert (Ae : e = CallWait w \/ e = Tau w \/ exists b, e = RetWait w b)
      by (apply A, in_or_app; right; left; auto).
    assert (L : forall c no, after_load debug (flag s1) c no = no).
    { intros c no. unfold after_load. destruct (Z.ltb_spec 0 (flag s1)); auto; lia. }
    assert (NC : e <> RetWait w true -> ~ In (RetWait w true) (h ++ [e])).
    { intros X Y. apply in_app_or in Y as [Y|[Y|[]]]; auto. }
    assert (PU : forall y, pc_of s1 w <> None -> nth_error (upd (pcs s1) w y) w = Some y).
    { intros y Y. unfold pc_of in Y. destruct (nth_error (pcs s1) w) eqn:Z; [|congruence].
      eapply nth_upd_eq; eauto. }
    assert (PN : pc_of s1 w <> None) by (intuition congruence).
    destruct Ae as [-> |[-> |[b ->]]]; inversion Hs; subst; simpl in *;
      try (exfalso; lia);
      try (exfalso; intuition congruence);
      try (split; [auto|split; [apply NC; discriminate|]]; unfold pc_of; simpl;
           rewrite ?L, PU by auto; tauto).
    assert (b = false) by (destruct b; auto; exfalso; intuition congruence). subst b.
    split; [auto|split; [apply NC; discriminate|]]; unfold pc_of; simpl; rewrite PU by auto; tauto.
Qed.

(** A value above one is a supply of wake-ups nobody sent: in a release build a
    wait succeeds and leaves the value one smaller; in a debug build the host
    aborts. *)
Theorem sem_corrupt_free_tokens s w :
  (0 < flag s)%Z -> pc_of s w = Some Idle ->
  run false s [CallWait w; Tau w; Tau w; RetWait w true] (Sem (flag s - 1) (upd (pcs s) w Idle))
  /\ (flag s <> 1%Z -> exists s', run true s [CallWait w; Die w] s').
Proof.
  intros Hf Hp. unfold pc_of in Hp.
  assert (cons_run : forall d s e s1 h s2, step d s e s1 -> run d s1 h s2 ->
      run d s (e :: h) s2).
  { intros d s0 e s1 h s2 A B. change (e :: h) with ([e] ++ h).
    eapply run_app; [eapply run_one; exact A|exact B]. }
  assert (UU : forall (l : list tpc) i a b, upd (upd l i a) i b = upd l i b).
  { induction l; intros [|i] x y; simpl; f_equal; auto. }
  assert (P : forall y, nth_error (upd (pcs s) w y) w = Some y)
    by (intros; eapply nth_upd_eq; eauto).
  assert (L : forall c no, after_load false (flag s) c no = c (flag s)).
  { intros. unfold after_load. destruct (Z.ltb_spec 0 (flag s)); [reflexivity|lia]. }
  split.
  - eapply cons_run. { apply s_call_wait. exact Hp. }
    eapply cons_run. { apply s_load1; [apply P|]. simpl. rewrite L. discriminate. }
    simpl. rewrite L.
    eapply cons_run.
    { apply s_cas1 with (f := flag s); [|reflexivity]. unfold pc_of; simpl. rewrite UU. apply P. }
    eapply cons_run.
    { apply s_ret_wait. unfold pc_of; simpl. rewrite !UU. apply P. }
    unfold goto, goto_set; simpl. rewrite !UU. constructor.
  - intros Hn. eexists.
    eapply cons_run. { apply s_call_wait. exact Hp. }
    eapply cons_run; [|constructor].
    apply s_load1_die; [apply P|]. simpl. unfold after_load.
    destruct (Z.ltb_spec 0 (flag s)); [|lia]. destruct (Z.eqb_spec (flag s) 1); [lia|reflexivity].
Qed.

Example demo_corrupt : pc_of (init 2) 0 = Some Idle /\ (flag (Sem (-5) [Idle; Idle]) < 0)%Z
  /\ (0 < flag (Sem 7 [Idle]))%Z.
Proof. split; [reflexivity|]. cbn. lia. Qed.

Print Assumptions sem_wakes_consumed_once.
Print Assumptions sem_no_abort.
Print Assumptions sem_no_lost_wakeup.
Print Assumptions sem_pending_wait_succeeds.
Print Assumptions sem_sleeper_is_woken.
Print Assumptions sem_wake_in_transit.
Print Assumptions sem_wait_progress.
Print Assumptions sem_wait_bounded.
Print Assumptions sem_corrupt_wake_aborts.
Print Assumptions sem_corrupt_negative_spins.
Print Assumptions sem_corrupt_free_tokens.
