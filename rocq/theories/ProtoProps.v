(** The claimed theorems about calls, callbacks and shutdown (C32, C34) and a
    silent sandbox (C50). *)
From Coq Require Import List ZArith Bool Lia.
From Verif Require Import ProtoModel ProtoSpec ProtoProof ProtoLoad ProtoProgress.
Import ListNotations.
Open Scope Z_scope.

Lemma seq_step_any hd cd st ct l st' ct' l' : seq_step hd cd (st, ct, l) (st', ct', l') ->
  exists e, l' = l ++ [e] /\ forall m, exists hd' cd', seq_step hd' cd' (st, ct, m) (st', ct', m ++ [e]).
Proof.
  intros H. inversion H; subst; eexists; (split; [reflexivity|]); intros m.
  - exists (fun _ => HCall i b), cd. constructor; reflexivity.
  - exists hd, cd. constructor.
  - exists hd, (fun _ => CCallback k). constructor; reflexivity.
  - exists hd, cd. constructor.
  - exists (fun _ => HReturn r), cd. constructor; reflexivity.
  - exists hd, cd. constructor.
  - exists hd, (fun _ => CReturn). constructor; reflexivity.
  - exists hd, cd. constructor.
Qed.

Lemma seq_shift hd cd st0 ct0 l0 m0 st ct l : seq hd cd (st0, ct0, l0) (st, ct, l) ->
  good (st0, ct0, m0) -> exists x, l = l0 ++ x /\ good (st, ct, m0 ++ x).
Proof.
  intros H G. remember (st0, ct0, l0) as a eqn:Ea. remember (st, ct, l) as c eqn:Ec.
  revert st ct l Ec. induction H as [|c c' H IH Hs]; intros st ct l Ec.
  - subst. injection Ec as -> -> ->. exists []. rewrite !app_nil_r. auto.
  - subst c'. destruct c as [[st1 ct1] l1]. destruct (IH st1 ct1 l1 eq_refl) as [x [-> Gx]].
    destruct (seq_step_any _ _ _ _ _ _ _ _ Hs) as [e [-> K]].
    destruct (K (m0 ++ x)) as [hd' [cd' K']].
    exists (x ++ [e]). rewrite !app_assoc. split; auto. eapply good_step; eauto.
Qed.

Lemma load_complete hd cd ks c0 l : load_start ks c0 -> seq hd cd c0 ([], InHost, l) -> complete ks l.
Proof.
  intros [done [E [-> |[i [b [l0 [-> [l1 [l2 [E1 ->]]]]]]]]]] S; exists done; (split; [exact E|]).
  - left. destruct (seq_shift _ _ _ _ _ [] _ _ _ S good_start) as [x [-> [_ G]]].
    exists x. split; auto. eapply shape_top; eauto.
  - right. destruct (seq_shift _ _ _ _ _ [EReq i b] _ _ _ S) as [x [-> [_ G]]].
    { split; [constructor|]. exists []. split; auto. constructor. constructor. }
    exists l1, l2, i, b, x. split; auto. split; [rewrite <- app_assoc; reflexivity|].
    eapply shape_top; eauto.
Qed.

Lemma snoc_inv {A} (l : list A) : l = [] \/ exists y e, l = y ++ [e].
Proof. destruct l using rev_ind; eauto. Qed.

Ltac crunch H :=
  repeat match type of H with
  | context [match ?x with _ => _ end] => destruct x eqn:?; try discriminate
  | context [if ?x then _ else _] => destruct x eqn:?; try discriminate
  end.

Lemma host_log debug spurious host_do fail s s' :
  host_step debug spurious host_do fail s = Some s' -> exists x, log s' = log s ++ x.
Proof.
  unfold host_step. intros H. crunch H; injection H as <-; cbn [log]; eauto;
    exists []; rewrite app_nil_r; auto.
Qed.
Lemma child_log debug child_do fail s s' :
  child_step debug child_do fail s = Some s' -> exists x, log s' = log s ++ x.
Proof.
  unfold child_step. intros H. crunch H; injection H as <-; cbn [log]; eauto;
    exists []; rewrite app_nil_r; auto.
Qed.

Lemma seq_no_quit hd cd st0 ct0 l0 st ct l : seq hd cd (st0, ct0, l0) (st, ct, l) ->
  ~ In EQuit l0 -> ~ In EQuit l.
Proof.
  intros H. remember (st0, ct0, l0) as a eqn:Ea. remember (st, ct, l) as c eqn:Ec.
  revert st ct l Ec. induction H as [|c c' H IH Hs]; intros st ct l Ec N.
  - subst. injection Ec as -> -> ->. auto.
  - subst. destruct c as [[st1 ct1] l1]. specialize (IH st1 ct1 l1 eq_refl N).
    inversion Hs; subst; rewrite in_app_iff; cbn; intuition discriminate.
Qed.

Lemma load_no_quit hd cd ks c0 st ct l : load_start ks c0 -> seq hd cd c0 (st, ct, l) -> ~ In EQuit l.
Proof.
  assert (N : forall done, ~ In EQuit (load_events done)).
  { intros done X. apply in_flat_map in X as [[k r] [_ X]]. cbn in X. intuition discriminate. }
  intros [done [E [-> |[i [b [l0 [-> [l1 [l2 [E1 ->]]]]]]]]]] S; eapply seq_no_quit in S; eauto.
  specialize (N done). rewrite E1, in_app_iff in N. rewrite in_app_iff. cbn. intuition discriminate.
Qed.

Section Claims.
Variable debug : bool.
Variable host_do : list event -> hact.
Variable child_do : list event -> cact.
Variable ks : list Z.
(** Argument frames are not null (the Function objects always pass one). *)
Hypothesis nonnull : forall l i b, host_do l = HCall i b -> b <> 0.
(** Handlers of callbacks made while the library loads do not call into it. *)
Hypothesis quiet : forall l k i b, In k ks -> no_invoke l -> host_do (l ++ [EHandle k]) <> HCall i b.

Notation reaches := (reach debug false host_do child_do (fresh ks)).

(** C32. Whenever the host's own top-level code runs after it has made a call,
    the history consists of the loading callbacks and of complete calls: each
    call started the requested function with the requested frame exactly once,
    each of its callbacks was handled exactly once, with the payload sent, in
    order, and got its handler's result, and everything is properly nested. *)
Theorem calls_nest_properly s :
  reaches s -> hpc s = HUser -> hstk s = [] ->
  (forall i b, ~ In (EReq i b) (log s)) \/ complete ks (log s).
Proof.
  intros R Hh Hk. destruct (All_reach _ _ _ nonnull ks quiet s R) as [L|[c0 [LS HI]]].
  - left. destruct L; cbn in *; subst; try discriminate; try (intuition discriminate).
    + destruct H0 as [[_ [_ ->]]|[i [b [_ [[X|X] _]]]]]; try discriminate.
      intros i b X. apply in_flat_map in X as [[k r] [_ X]]. cbn in X. intuition discriminate.
    + destruct H0 as [[_ [_ ->]]|[i [b [_ [[X|X] _]]]]]; try discriminate.
      intros i b X. apply in_app_or in X as [X|X]; [|cbn in X; intuition discriminate].
      apply in_flat_map in X as [[k' r] [_ X]]. cbn in X. intuition discriminate.
    + destruct H0 as [[[_ [_ ->]]|[i [b [_ [[X|X] _]]]]]|[i [b [_ [X _]]]]]; try discriminate.
      intros i b X. apply in_app_or in X as [X|X]; [|cbn in X; intuition discriminate].
      apply in_flat_map in X as [[k' r] [_ X]]. cbn in X. intuition discriminate.
    + destruct H0 as [[[_ [_ ->]]|[i [b [_ [[X|X] _]]]]]|[i [b [_ [X _]]]]]; try discriminate.
      intros i b X. apply in_app_or in X as [X|X]; [|cbn in X; intuition discriminate].
      apply in_flat_map in X as [[k' r] [_ X]]. cbn in X. intuition discriminate.
    + destruct H0 as [[[_ [_ ->]]|[i [b [_ [[X|X] _]]]]]|[i [b [_ [X _]]]]]; try discriminate.
      intros i b X. apply in_app_or in X as [X|X]; [|cbn in X; intuition discriminate].
      apply in_flat_map in X as [[k' r] [_ X]]. cbn in X. intuition discriminate.
    + destruct H0 as [[_ [_ ->]]|[i [b [_ [[X|X] _]]]]]; try discriminate.
      intros i b X. apply in_flat_map in X as [[k r] [_ X]]. cbn in X. intuition discriminate.
    + destruct H0 as [[_ [_ ->]]|[i [b [_ [[X|X] _]]]]]; try discriminate.
      intros i b X. apply in_flat_map in X as [[k r] [_ X]]. cbn in X. intuition discriminate.
    + rewrite Hh in H. discriminate.
  - right. destruct HI; cbn in *; subst; try discriminate;
      try (unfold waiting in *; intuition discriminate).
    assert (st = []) as -> by (inversion H; subst; [auto|discriminate]).
    eapply load_complete; eauto.
Qed.

Lemma LInv_quiet s : LInv ks s -> no_invoke (log s).
Proof.
  intros L.
  assert (B : forall h ex m l, base h ex m l -> no_invoke m -> no_invoke l).
  { intros h ex m l [[_ [_ ->]]|[i [b [_ [_ X]]]]]; auto. intros; eapply ins_no_invoke; eauto. }
  assert (Bw : forall h ex m l, basew h ex m l -> no_invoke m -> no_invoke l).
  { intros h ex m l [X|[i [b [_ [_ X]]]]]; [eauto|]. intros; eapply ins_no_invoke; eauto. }
  assert (N1 : forall done k, no_invoke (load_events done ++ [ECallback k]))
    by (intros; apply no_invoke_load1; discriminate).
  assert (N3 : forall done k r, no_invoke (load_events done ++ [ECallback k; EHandle k; EHandled k r])).
  { intros. apply no_invoke_app. split; [apply no_invoke_load|]. intros i b X. cbn in X. intuition discriminate. }
  destruct L; cbn; eauto using no_invoke_load, ins_no_invoke.
  - apply no_invoke_app. split; [eauto using ins_no_invoke|]. intros i' b' X. cbn in X. intuition discriminate.
  - rewrite H6. apply no_invoke_app in H7 as [X Y]. apply no_invoke_app. split; auto.
    intros i b [Z|Z]; [discriminate|]. exact (Y i b Z).
Qed.

Lemma called s i b : reaches s -> In (EInvoke i b) (log s) ->
  exists c0, load_start ks c0 /\ Inv host_do child_do c0 s.
Proof.
  intros R X. destruct (All_reach _ _ _ nonnull ks quiet s R) as [L|H]; auto.
  destruct (LInv_quiet s L i b X).
Qed.

(** C32. The two processes together behave like one sequential program: every
    history of a loaded library is a history of nested procedure calls, possibly
    followed by its shutdown. *)
Theorem calls_are_sequential s :
  reaches s ->
  no_invoke (log s)
  \/ exists c0 st ct l, load_start ks c0 /\ seq host_do child_do c0 (st, ct, l)
       /\ (log s = l \/ (log s = l ++ [EQuit] /\ st = [] /\ ct = InHost)).
Proof.
  intros R. destruct (All_reach _ _ _ nonnull ks quiet s R) as [L|[c0 [LS HI]]].
  - left. apply LInv_quiet; auto.
  - right. exists c0. destruct HI; cbn; eauto 12.
Qed.

(** C32. Everything the history says the two programs did is what their code
    decided at that point: which function the host called with which frame, what
    its handlers returned, that it destroyed the library, that the library's
    function returned. *)
Definition decided (l : list event) (e : event) : Prop :=
  match e with
  | EReq i b => host_do l = HCall i b
  | EHandled _ r => host_do l = HReturn r
  | EQuit => exists r, host_do l = HReturn r
  | EReturn _ _ => child_do l = CReturn
  | _ => True
  end.
Lemma host_decides fail s s' : host_step debug false host_do fail s = Some s' ->
  log s' = log s \/ exists e, log s' = log s ++ [e] /\ decided (log s) e.
Proof.
  unfold host_step. intros H. crunch H; injection H as <-; cbn [log]; auto;
    right; eexists; (split; [reflexivity|]); cbn; eauto.
Qed.
Lemma child_decides fail s s' : child_step debug child_do fail s = Some s' ->
  log s' = log s \/ exists e, log s' = log s ++ [e] /\ decided (log s) e.
Proof.
  unfold child_step. intros H. crunch H; injection H as <-; cbn [log]; auto;
    right; eexists; (split; [reflexivity|]); cbn; eauto.
Qed.
Theorem user_code_decides s l1 e l2 :
  reaches s -> log s = l1 ++ e :: l2 -> decided l1 e.
Proof.
  intros R. revert l2. induction R as [|s s' R IH St]; intros l2 E.
  - destruct l1; discriminate.
  - assert (X : log s' = log s \/ exists e, log s' = log s ++ [e] /\ decided (log s) e)
      by (destruct St as [f a a' H|f a a' H]; [eapply host_decides|eapply child_decides]; eauto).
    destruct X as [X|(e' & X & D)]; [rewrite X in E; eauto|].
    destruct (snoc_inv l2) as [-> |(y & z & ->)].
    + rewrite X in E. apply app_inj_tail in E as [<- <-]. exact D.
    + rewrite X, app_comm_cons, app_assoc in E. apply app_inj_tail in E as [E _]. eauto.
Qed.

(** C32. Once the library is loaded, user code never runs on both sides at the
    same time. *)
Theorem one_side_at_a_time s :
  reaches s -> loaded (sh s) = true -> hpc s = HUser -> cpc s = CUser -> False.
Proof.
  intros R Hl Hh Hc. destruct (All_reach _ _ _ nonnull ks quiet s R) as [L|[c0 [LS HI]]].
  - destruct L; cbn in *; subst; try discriminate.
    + destruct H1; discriminate.
    + rewrite Hh in H. discriminate.
  - destruct HI; cbn in *; subst; try discriminate; unfold parked, waiting in *; intuition discriminate.
Qed.

(** C32. Whenever the host's user code runs, the nesting depth equals the number
    of handlers in progress: a call returns with the depth it was entered with. *)
Theorem depth_matches_nesting s :
  reaches s -> loaded (sh s) = true -> hpc s = HUser ->
  depth (sh s) = Z.of_nat (length (hstk s)) /\ cflag (sh s) = 0 /\ pflag (sh s) = 0
  /\ mbuf (sh s) = 0 /\ reqs s = [] /\ resps s = [].
Proof.
  intros R Hl Hh. destruct (All_reach _ _ _ nonnull ks quiet s R) as [L|[c0 [LS HI]]].
  - destruct L; cbn in *; subst; try discriminate; auto 10.
    rewrite Hh in H. discriminate.
  - destruct HI; cbn in *; subst; try discriminate; try (unfold parked, waiting in *; intuition discriminate).
    repeat split. clear - H. induction H as [|k i b t H IH]; cbn -[Z.of_nat]; auto.
    rewrite IH. lia.
Qed.

(** C32. Neither process is ever aborted by the protocol's own checks, in debug
    and release builds, as long as the library is not being destroyed. *)
Theorem no_protocol_aborts s :
  reaches s -> hpc s <> HAborted /\ (cpc s = CAborted -> In EQuit (log s)).
Proof.
  intros R. destruct (All_reach _ _ _ nonnull ks quiet s R) as [L|[c0 [LS HI]]].
  - destruct L; cbn.
    + unfold base in *; split; [intros X; cases; discriminate|discriminate].
    + unfold base in *; split; [intros X; cases; discriminate|discriminate].
    + unfold basew, base in *; split; [intros X; cases; discriminate|discriminate].
    + unfold basew, base in *; split; [intros X; cases; discriminate|discriminate].
    + unfold basew, base in *; split; intros X; cases; discriminate.
    + split; intros X; cases; discriminate.
    + split; intros X; cases; discriminate.
    + split; intros X; cases; discriminate.
    + split; intros X; cases; discriminate.
    + split; intros X; cases; discriminate.
    + unfold base in *; split; intros X; cases; discriminate.
    + unfold base in *; split; intros X; cases; discriminate.
    + split; [intros X; rewrite X in H; discriminate|]. intros _. rewrite H6. apply in_or_app. right; left; auto.
  - destruct HI; cbn; split; try (intros X; cases; discriminate).
Qed.

(** C32. From every reachable state of a library that has been called the next
    event can be reached: the protocol never deadlocks. *)
Theorem calls_make_progress s i b :
  reaches s -> In (EInvoke i b) (log s) -> hpc s <> HEnd ->
  exists s', reach debug false host_do child_do s s' /\
    ((length (log s) < length (log s'))%nat \/ hpc s' = HEnd).
Proof.
  intros R X NE. destruct (called s i b R X) as [c0 [_ HI]]. eapply progress; eauto.
Qed.

(** C32. Apart from polling, the protocol takes at most 76 steps per event. *)
Theorem calls_take_bounded_steps s i b n s' :
  reaches s -> In (EInvoke i b) (log s) -> costs debug false host_do child_do s n s' ->
  (n <= 75 + 76 * (length (log s') - length (log s)))%nat.
Proof.
  intros R X K. destruct (called s i b R X) as [c0 [_ HI]].
  destruct (costs_bound _ _ _ _ _ nonnull s n s' HI K) as [_ [B _]]. pose proof (mes_bound s). lia.
Qed.

(** C34. Once the destructor has started, no exported function is started. *)
Theorem shutdown_runs_nothing s l1 l2 :
  reaches s -> log s = l1 ++ EQuit :: l2 -> no_invoke l2.
Proof.
  intros R E. destruct (All_reach _ _ _ nonnull ks quiet s R) as [L|[c0 [LS HI]]].
  - apply LInv_quiet in L. rewrite E in L. apply no_invoke_app in L as [_ L].
    intros i b X. apply (L i b). right; auto.
  - assert (K : forall st ct l, seq host_do child_do c0 (st, ct, l) ->
      (log s = l \/ log s = l ++ [EQuit]) -> no_invoke l2).
    { intros st ct l S [X|X]; pose proof (load_no_quit _ _ _ _ _ _ _ LS S) as N.
      - exfalso. apply N. rewrite <- X, E. apply in_or_app. right. left. auto.
      - rewrite E in X. destruct (snoc_inv l2) as [-> |[y [e ->]]]; [intros i b []|].
        exfalso. apply N. rewrite app_comm_cons, app_assoc in X. apply app_inj_tail in X as [<- _].
        apply in_or_app. right. left. auto. }
    destruct HI; cbn in *; eapply K; eauto.
Qed.

(** C34. Shutting down a library that was used ends: the host always can get to
    the end of its destructor, at most 75 steps that are not polling remain, and
    when it is there the sandbox process has left its run loop and exited. *)
Theorem shutdown_ends s i b :
  reaches s -> In (EInvoke i b) (log s) -> In EQuit (log s) ->
  (exists s', reach debug false host_do child_do s s' /\ hpc s' = HEnd /\ cpc s' = CExit)
  /\ (forall n s', costs debug false host_do child_do s n s' -> (n <= 75)%nat).
Proof.
  intros R X Q. destruct (called s i b R X) as [c0 [LS HI]].
  assert (F : forall s, Inv host_do child_do c0 s -> In EQuit (log s) ->
     exists l, ~ In EQuit l /\ log s = l ++ [EQuit]).
  { clear - LS. intros s HI Q. destruct HI; cbn in *;
      try (match goal with [ H : seq _ _ _ (_, _, _) |- _ ] =>
             pose proof (load_no_quit _ _ _ _ _ _ _ LS H) as N end; first [contradiction|eauto]). }
  assert (D : forall s, Inv host_do child_do c0 s -> hpc s = HEnd -> cpc s = CExit).
  { clear. intros s HI Q. destruct HI; cbn in *; cases; try discriminate; auto. }
  assert (Len : forall s', Inv host_do child_do c0 s' -> (exists x, log s' = log s ++ x) -> log s' = log s).
  { intros s' I' [x E']. destruct (F s HI Q) as [l [N E]].
    assert (Q' : In EQuit (log s')) by (rewrite E'; apply in_or_app; auto).
    destruct (F s' I' Q') as [l' [N' El]]. rewrite E' in El. 
    destruct (snoc_inv x) as [-> |[y [e ->]]]; [rewrite E', app_nil_r; auto|].
    rewrite app_assoc in El. apply app_inj_tail in El as [<- _]. exfalso. apply N'.
    apply in_or_app. left. auto. }
  assert (Pre : forall s', reach debug false host_do child_do s s' -> exists x, log s' = log s ++ x).
  { clear. intros s' H. induction H as [|s1 s2 H [x IH] St]; [exists []; rewrite app_nil_r; auto|].
    assert (exists y, log s2 = log s1 ++ y) as [y ->]; [|exists (x ++ y); rewrite IH, app_assoc; auto].
    destruct St as [f a a' K|f a a' K]; [apply host_log in K|apply child_log in K]; auto. }
  assert (RI : forall s', reach debug false host_do child_do s s' -> Inv host_do child_do c0 s')
    by (intros; eapply Inv_reach; eauto).
  split.
  - destruct (hpc s) eqn:Eh;
      try (destruct (progress debug false host_do child_do c0 nonnull s HI) as [s' [R' [L'|E']]];
           [rewrite Eh; discriminate
           |pose proof (Len s' (RI s' R') (Pre s' R')) as Z; rewrite Z in L'; lia
           |exists s'; auto]).
    exists s. split; [constructor|]. auto.
  - intros n s' K. pose proof (calls_take_bounded_steps s i b n s' R X K) as B.
    assert (R' : reach debug false host_do child_do s s').
    { clear - K. induction K; [constructor|econstructor; eauto|econstructor; eauto]. }
    rewrite (Len s' (RI s' R') (Pre s' R')) in B. lia.
Qed.
End Claims.
