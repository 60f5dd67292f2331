(** The claimed theorems about callback handlers that throw (C73). *)
From Coq Require Import List ZArith Bool Lia.
From Verif Require Import ProtoModel ProtoSpec ProtoLoad ProtoProgress ProtoProps ThrowModel ThrowSpec ThrowProof.
Import ListNotations.
Open Scope Z_scope.

Lemma LInv_top ks s : LInv ks s -> hpc s = HUser -> hstk s = [] -> forall i b, ~ In (EReq i b) (log s).
Proof.
  intros L Hh Hk.
  assert (N : forall done, forall i b, ~ In (EReq i b) (load_events done)).
  { intros done i b X. apply in_flat_map in X as [[k r] [_ X]]. cbn in X. intuition discriminate. }
  assert (N1 : forall done k i b, ~ In (EReq i b) (load_events done ++ [ECallback k])).
  { intros done k i b X. apply in_app_or in X as [X|X]; [exact (N _ _ _ X)|cbn in X; intuition discriminate]. }
  destruct L; cbn in *; subst; try discriminate; unfold basew, base in *; ProtoLoad.cases; try discriminate; auto.
  rewrite Hh in H. discriminate.
Qed.

Section Claims.
Variable debug : bool.
Variable host_do : list event -> xact.
Variable child_do : list event -> cact.
Variable ks : list Z.
(** Argument frames are not null (the Function objects always pass one). *)
Hypothesis nonnull : forall l i b, host_do l = XDo (HCall i b) -> b <> 0.
(** Exceptions are caught by the host's top-level code, not by handlers. *)
Hypothesis nocatch : forall l, host_do l <> XThrow true.
(** Handlers of callbacks made while the library loads return without calling
    into it. *)
Hypothesis quiet : forall l k, In k ks -> no_invoke l -> exists r, host_do (l ++ [EHandle k]) = XDo (HReturn r).

Notation reaches := (xreach debug false host_do child_do (fresh ks)).
Notation All := (XAll_reach debug host_do child_do nonnull nocatch ks quiet).

(** C73. Whenever the host's top-level code runs after it has made a call, the
    history consists of the loading callbacks and of calls, each of which is
    complete as in C32 or was abandoned: its function was started once, its
    callbacks were handled up to the one whose handler threw, and nothing of it
    happened after that. *)
Theorem throwing_handlers_history s :
  reaches s -> hpc s = HUser -> hstk s = [] ->
  (forall i b, ~ In (EReq i b) (log s)) \/ history_from ks (log s).
Proof.
  intros R Hh Hk. destruct (All s R) as [L|[c0 [LS HI]]].
  - left. eapply LInv_top; eauto.
  - right. destruct HI; cbn in *; subst; try discriminate; unfold waiting in *; try (intuition discriminate).
    destruct H as [t D|]; [|discriminate]. destruct H1 as [S _]. rewrite (dead_er _ D) in S. eapply xload_complete; eauto.
Qed.

(** C73. The two processes behave like one sequential program in which a handler
    that throws ends every call in progress. *)
Theorem throwing_is_sequential s :
  reaches s ->
  no_invoke (log s)
  \/ exists c0 st ct l, load_start ks c0 /\ xseq host_do child_do c0 (st, ct, l)
       /\ (log s = l \/ (log s = l ++ [EQuit] /\ st = [] /\ ct = InHost)).
Proof.
  intros R. destruct (All s R) as [L|[c0 [LS HI]]].
  - left. exact (LInv_quiet child_do ks s L).
  - right. destruct HI; cbn;
      match goal with [ H : Q _ _ _ _ _ _ |- _ ] => destruct H as [S _]; eexists c0, _, _, _; split; [exact LS|split; [exact S|auto]] end.
Qed.

(** C73. Once the library is loaded, user code never runs on both sides at the
    same time, in particular not the function of an abandoned call. *)
Theorem throwing_one_side_at_a_time s :
  reaches s -> loaded (sh s) = true -> hpc s = HUser -> cpc s = CUser -> False.
Proof.
  intros R Hl Hh Hc. destruct (All s R) as [L|[c0 [LS HI]]].
  - destruct L; cbn in *; subst; try discriminate.
    + ProtoLoad.cases; discriminate.
    + rewrite Hh in H. discriminate.
  - destruct HI; cbn in *; subst; try discriminate; unfold parked, waiting in *; intuition discriminate.
Qed.

Lemma cf_length st : hst st -> Z.of_nat (length (cf st)) = 2 * level st.
Proof.
  induction 1 as [t D|k i b t H IH]; [induction D|]; cbn [cf level length]; lia.
Qed.

(** C73. Each abandoned handler costs one level of nesting for good: whenever the
    host's user code runs in a loaded library, the depth is the number of handlers
    that were started and did not return, and the sandbox's stack holds two frames
    for each of them. *)
Theorem throwing_leaks_depth s :
  reaches s -> loaded (sh s) = true -> hpc s = HUser ->
  depth (sh s) = Z.of_nat (started (log s)) - Z.of_nat (answered (log s))
  /\ Z.of_nat (length (cstk s)) = 2 * depth (sh s)
  /\ cflag (sh s) = 0 /\ pflag (sh s) = 0 /\ mbuf (sh s) = 0 /\ reqs s = [] /\ resps s = [].
Proof.
  intros R Hl Hh. change (Z.of_nat (started (log s)) - Z.of_nat (answered (log s))) with (balance (log s)).
  destruct (All s R) as [L|[c0 [LS HI]]].
  - destruct L; cbn -[balance] in *; subst; try discriminate; [|rewrite Hh in H; discriminate].
    destruct H0 as [(_ & _ & ->)|(i & b & _ & [X|X] & _)]; try discriminate.
    rewrite balance_load. auto 10.
  - destruct HI; cbn -[balance Z.mul Z.of_nat cf] in *; subst; try discriminate; try (unfold parked, waiting in *; intuition discriminate).
    destruct H1 as [_ B]. rewrite (cf_length _ H). auto 10.
Qed.

(** C73. The protocol's own checks abort neither process, as long as the library
    is not being destroyed. *)
Theorem throwing_never_aborts s :
  reaches s -> hpc s <> HAborted /\ (cpc s = CAborted -> In EQuit (log s)).
Proof.
  intros R. destruct (All s R) as [L|[c0 [LS HI]]].
  - destruct L; cbn; try (unfold basew, base in *; split; intros X; ProtoLoad.cases; discriminate).
    + split; [intros X; rewrite X in H; discriminate|]. intros _. rewrite H6. apply in_or_app. right; left; auto.
  - destruct HI; cbn; split; try (unfold parked, waiting in *; intros X; ProtoLoad.cases; discriminate).
Qed.

Lemma xcalled s i b : reaches s -> In (EInvoke i b) (log s) ->
  exists c0, load_start ks c0 /\ XInv host_do child_do c0 s.
Proof.
  intros R X. destruct (All s R) as [L|H]; auto. destruct (LInv_quiet child_do ks s L i b X).
Qed.

(** C73. The library stays usable: from every reachable state in which a function
    has been started the next event can be reached. *)
Theorem throwing_makes_progress s i b :
  reaches s -> In (EInvoke i b) (log s) -> hpc s <> HEnd ->
  exists s', xreach debug false host_do child_do s s' /\
    ((length (log s) < length (log s'))%nat \/ hpc s' = HEnd).
Proof.
  intros R X NE. destruct (xcalled s i b R X) as [c0 [_ HI]]. eapply xprogress; eauto.
Qed.

(** C73. Destroying the library still starts no function, abandoned or not, and
    ends with the sandbox process gone. *)
Theorem throwing_shutdown_runs_nothing s l1 l2 :
  reaches s -> log s = l1 ++ EQuit :: l2 -> no_invoke l2.
Proof.
  intros R E. destruct (All s R) as [L|[c0 [LS HI]]].
  - apply (LInv_quiet child_do) in L. rewrite E in L. apply no_invoke_app in L as [_ L].
    intros i b X. apply (L i b). right; auto.
  - assert (K : forall st ct l, xseq host_do child_do c0 (st, ct, l) ->
      (log s = l \/ log s = l ++ [EQuit]) -> no_invoke l2).
    { intros st ct l S [X|X]; pose proof (xload_no_quit _ _ _ _ _ _ _ LS S) as N.
      - exfalso. apply N. rewrite <- X, E. apply in_or_app. right. left. auto.
      - rewrite E in X. destruct (snoc_inv l2) as [-> |[y [e ->]]]; [intros i b []|].
        exfalso. apply N. rewrite app_comm_cons, app_assoc in X. apply app_inj_tail in X as [<- _].
        apply in_or_app. right. left. auto. }
    destruct HI; cbn in *;
      match goal with [ H : Q _ _ _ _ _ _ |- _ ] => destruct H as [S _]; eapply K; eauto end.
Qed.

Theorem throwing_shutdown_ends s i b :
  reaches s -> In (EInvoke i b) (log s) -> In EQuit (log s) ->
  exists s', xreach debug false host_do child_do s s' /\ hpc s' = HEnd /\ cpc s' = CExit.
Proof.
  intros R X G. destruct (xcalled s i b R X) as [c0 [LS HI]].
  assert (F : forall s, XInv host_do child_do c0 s -> In EQuit (log s) ->
     exists l, ~ In EQuit l /\ log s = l ++ [EQuit]).
  { clear - LS. intros s HI G. destruct HI; cbn in *;
      match goal with [ H : Q _ _ _ _ _ _ |- _ ] => destruct H as [S _];
        pose proof (xload_no_quit _ _ _ _ _ _ _ LS S) as N; first [contradiction|eauto] end. }
  assert (D : forall s, XInv host_do child_do c0 s -> hpc s = HEnd -> cpc s = CExit).
  { clear. intros s HI G. destruct HI; cbn in *; unfold parked, waiting in *; ProtoLoad.cases; try discriminate; auto. }
  assert (RI : forall s', xreach debug false host_do child_do s s' -> XInv host_do child_do c0 s')
    by (intros; eapply XInv_reach; eauto).
  assert (Len : forall s', xreach debug false host_do child_do s s' -> log s' = log s).
  { intros s' R'. destruct (xreach_log _ _ _ _ _ _ R') as [x E']. destruct (F s HI G) as [l [N E]].
    assert (G' : In EQuit (log s')) by (rewrite E'; apply in_or_app; auto).
    destruct (F s' (RI s' R') G') as [l' [N' El]]. rewrite E' in El.
    destruct (snoc_inv x) as [-> |[y [e ->]]]; [rewrite E', app_nil_r; auto|].
    rewrite app_assoc in El. apply app_inj_tail in El as [<- _]. exfalso. apply N'.
    apply in_or_app. left. auto. }
  destruct (hpc s) eqn:Eh;
    try (destruct (xprogress debug false host_do child_do c0 nonnull nocatch s HI) as [s' [R' [L'|E']]];
         [rewrite Eh; discriminate
         |rewrite (Len s' R') in L'; lia
         |exists s'; auto]).
  exists s. split; [constructor|]. auto.
Qed.
End Claims.

(** ** Exceptions that a handler catches *)
Section Caught.
Variable debug spurious : bool.
Variable host_do : list event -> xact.
Variable child_do : list event -> cact.
Variables (n fi i1 b1 k1 i2 b2 k2 r : Z) (hs : list hframe) (cs : list cframe) (l : list event).
Notation K1 := (KCb k1 :: KRun n i1 b1 :: cs).
Notation K2 := (KCb k2 :: KRun (n + 1) i2 b2 :: K1).
Notation H1 := (FSend i1 b1 n k1 :: hs).
Hypothesis throws : host_do l = XThrow true.
Hypothesis goes_on : host_do (l ++ [EThrow]) = XDo (HReturn r).

(** The handler of callback k2 of function i2 runs; that function was called by
    the handler of callback k1 of function i1 (throwing_leaks_depth). *)
Definition inner_handler (p : cstate) : conf :=
  Conf (Shared (n + 2) fi 0 0 0 false false true) HUser (FSend i2 b2 (n + 1) k2 :: H1) p K2 [] [] l.

Definition wrong (h : hstate) : conf :=
  Conf (Shared (n + 1) fi 0 0 0 true false true) h hs CUser (KRun (n + 1) i2 b2 :: K1) [] []
    (((l ++ [EThrow]) ++ [EHandled k1 r]) ++ [EResume k2 r]).
Inductive CPre : conf -> Prop :=
| C_start p : parked (n + 2) p -> CPre (inner_handler p)
| C_caught p : parked (n + 2) p ->
    CPre (Conf (Shared (n + 2) fi 0 0 0 false false true) HUser H1 p K2 [] [] (l ++ [EThrow]))
| C_dec p : parked (n + 2) p ->
    CPre (Conf (Shared (n + 2) fi 0 0 0 false false true) (HDec i1 b1 n) hs p K2 [] [r] ((l ++ [EThrow]) ++ [EHandled k1 r]))
| C_exec p : parked (n + 2) p ->
    CPre (Conf (Shared (n + 1) fi 0 0 0 false false true) (HExec2 i1 b1 n) hs p K2 [] [r] ((l ++ [EThrow]) ++ [EHandled k1 r]))
| C_wake p : parked (n + 2) p ->
    CPre (Conf (Shared (n + 1) fi 0 0 0 true false true) (HWake2 i1 b1 n) hs p K2 [] [r] ((l ++ [EThrow]) ++ [EHandled k1 r]))
| C_sent p h : parked (n + 2) p -> waiting i1 b1 n h ->
    CPre (Conf (Shared (n + 1) fi 0 1 0 true false true) h hs p K2 [] [r] ((l ++ [EThrow]) ++ [EHandled k1 r]))
| C_pick p h : waiting i1 b1 n h ->
    p = ProtoModel.CInv (n + 2) \/ p = CIdx (n + 2) \/ p = CBuf (n + 2) fi \/ p = CNull (n + 2) fi 0 \/ p = CDepth (n + 2) \/ p = CRecv ->
    CPre (Conf (Shared (n + 1) fi 0 0 0 true false true) h hs p K2 [] [r] ((l ++ [EThrow]) ++ [EHandled k1 r]))
| C_wrong h : waiting i1 b1 n h -> CPre (wrong h).

Lemma eqb_21 : (n + 1 =? n + 2) = false.
Proof. apply Z.eqb_neq; lia. Qed.
Lemma eqb_01 : (n =? n + 1) = false.
Proof. apply Z.eqb_neq; lia. Qed.
Lemma sub_21 : n + 2 - 1 = n + 1.
Proof. lia. Qed.
Lemma sub_10 : n + 1 - 1 = n.
Proof. lia. Qed.

Ltac cases := repeat match goal with
  | [ H : parked _ _ |- _ ] => destruct H
  | [ H : waiting _ _ _ _ |- _ ] => destruct H
  | [ H : _ \/ _ |- _ ] => destruct H
  end; subst.
Ltac norm H := unfold xhost_step, inner_handler, wrong in H;
  cbn [host_step child_step sh hpc hstk cpc cstk reqs resps log depth findex mbuf cflag pflag executing
       should_exit loaded set_depth set_findex set_mbuf set_cflag set_pflag set_executing
       set_should_exit set_loaded wake wait Z.ltb Z.eqb Z.compare gone andb orb negb] in H;
  rewrite ?eqb_21, ?eqb_01, ?sub_21, ?sub_10, ?ltb_succ, ?Z.ltb_irrefl, ?Z.eqb_refl, ?andb_false_r, ?orb_false_r, ?throws in H;
  cbn [andb orb negb] in H.
Ltac finish := solve [econstructor; unfold parked, waiting in *; auto 12].

Lemma CPre_step s s' : CPre s -> xstep debug spurious host_do child_do s s' ->
  CPre s' \/ exists h f, waiting i1 b1 n h /\ child_step debug child_do f (wrong h) = Some s'.
Proof.
  intros HI St. destruct HI; inversion St as [f a a' H'|f a a' H']; subst;
    try (right; exists h, f; split; assumption); left; cases; norm H'; try discriminate.
  all: try (injection H' as <-; finish).
  all: try (destruct f; [|discriminate]; injection H' as <-; finish).
  all: try (unfold plain in H'; rewrite goes_on in H'; injection H' as <-; finish).
Qed.

Lemma CPre_log s : CPre s ->
  log s = l \/ log s = l ++ [EThrow] \/ log s = l ++ [EThrow; EHandled k1 r]
  \/ log s = l ++ [EThrow; EHandled k1 r; EResume k2 r].
Proof. destruct 1; cbn [log inner_handler wrong]; rewrite <- ?app_assoc; auto. Qed.

(** C73, limit. An exception of a nested handler that the handler above it catches
    desynchronises the two sides: when that handler then returns [r], the value is
    given to the inner callback, whose handler threw, and nothing else happens in
    between, in every execution. *)
Theorem caught_exception_misdelivers p s' :
  p = CChk (n + 2) \/ p = CWait (n + 2) -> xreach debug spurious host_do child_do (inner_handler p) s' ->
  log s' = l \/ log s' = l ++ [EThrow] \/ log s' = l ++ [EThrow; EHandled k1 r]
  \/ exists x, log s' = l ++ [EThrow; EHandled k1 r; EResume k2 r] ++ x.
Proof.
  intros Hp R.
  assert (HI : CPre s' \/ exists x, log s' = (((l ++ [EThrow]) ++ [EHandled k1 r]) ++ [EResume k2 r]) ++ x).
  { induction R as [|s s' R IH St]; [left; constructor; auto|]. destruct IH as [IH|[x IH]].
    - destruct (CPre_step _ _ IH St) as [X|(h & f & W & X)]; [auto|]. right. apply child_log in X. exact X.
    - right. assert (exists y, log s' = log s ++ y) as [y E].
      { destruct St as [f a a' K|f a a' K]; [eapply xhost_log; eauto|eapply child_log; eauto]. }
      rewrite IH, <- app_assoc in E. eauto. }
  destruct HI as [HI|[x E]].
  - destruct (CPre_log _ HI) as [E|[E|[E|E]]]; auto. right; right; right. exists []. exact E.
  - right; right; right. exists x. rewrite E, <- !app_assoc. auto.
Qed.

(** If the inner function then returns, the outer call hangs. *)
Hypothesis returns : child_do (l ++ [EThrow; EHandled k1 r; EResume k2 r]) = CReturn.
Notation full := ((((l ++ [EThrow]) ++ [EHandled k1 r]) ++ [EResume k2 r]) ++ [EReturn i2 b2]).

Inductive DInv : conf -> Prop :=
| D_early s : CPre s -> DInv s
| D_ret h p : waiting i1 b1 n h -> p = CDepth (n + 1) \/ p = CExec2 (n + 1) ->
    DInv (Conf (Shared (n + 1) fi 0 0 0 true false true) h hs p K1 [] [] full)
| D_wake h : waiting i1 b1 n h ->
    DInv (Conf (Shared (n + 1) fi 0 0 0 false false true) h hs (CWake2 (n + 1)) K1 [] [] full)
| D_back h p : waiting i1 b1 n h -> parked (n + 1) p ->
    DInv (Conf (Shared (n + 1) fi 0 0 1 false false true) h hs p K1 [] [] full)
| D_check h p : h = HCheck i1 b1 n \/ h = HHandle i1 b1 n \/ h = HDec i1 b1 n -> parked (n + 1) p ->
    DInv (Conf (Shared (n + 1) fi 0 0 0 false false true) h hs p K1 [] [] full)
| D_exec p : parked (n + 1) p ->
    DInv (Conf (Shared n fi 0 0 0 false false true) (HExec2 i1 b1 n) hs p K1 [] [] full)
| D_wake2 p : parked (n + 1) p ->
    DInv (Conf (Shared n fi 0 0 0 true false true) (HWake2 i1 b1 n) hs p K1 [] [] full)
| D_sent h p : waiting i1 b1 n h -> parked (n + 1) p ->
    DInv (Conf (Shared n fi 0 1 0 true false true) h hs p K1 [] [] full)
| D_stuck h p : waiting i1 b1 n h ->
    p = ProtoModel.CInv (n + 1) \/ p = CIdx (n + 1) \/ p = CBuf (n + 1) fi \/ p = CNull (n + 1) fi 0 \/ p = CDepth (n + 1) \/ p = CRecv ->
    DInv (Conf (Shared n fi 0 0 0 true false true) h hs p K1 [] [] full).

Lemma DInv_step s s' : DInv s -> xstep debug spurious host_do child_do s s' -> DInv s'.
Proof.
  intros HI St. destruct HI.
  { destruct (CPre_step _ _ H St) as [X|(h & f & W & X)]; [constructor; auto|].
    unfold wrong in X. norm X. pose proof returns as R. change [EThrow; EHandled k1 r; EResume k2 r] with
      ([EThrow] ++ [EHandled k1 r] ++ [EResume k2 r]) in R. rewrite !app_assoc in R. rewrite R in X. injection X as <-. finish. }
  all: inversion St as [f a a' H'|f a a' H']; subst; cases; norm H'; try discriminate.
  all: try (injection H' as <-; finish).
  all: try (destruct f; [|discriminate]; injection H' as <-; finish).
Qed.

(** C73, limit. If the inner function returns after that, neither callback nor
    function of the outer call ever goes on, and the outer call never returns. *)
Theorem caught_exception_hangs p s' :
  p = CChk (n + 2) \/ p = CWait (n + 2) -> xreach debug spurious host_do child_do (inner_handler p) s' ->
  exists y, log s' ++ y = l ++ [EThrow; EHandled k1 r; EResume k2 r; EReturn i2 b2].
Proof.
  intros Hp R. assert (HI : DInv s') by (induction R; [do 2 constructor; auto|eapply DInv_step; eauto]).
  assert (E : full = l ++ [EThrow; EHandled k1 r; EResume k2 r; EReturn i2 b2]) by (rewrite <- !app_assoc; reflexivity).
  destruct HI as [s HI| | | | | | | |]; cbn [log]; try (exists []; rewrite app_nil_r; exact E).
  destruct (CPre_log _ HI) as [X|[X|[X|X]]]; rewrite X; eexists; rewrite <- ?app_assoc; reflexivity.
Qed.
End Caught.

(** ** A handler that throws while the library loads *)
Section Loading.
Variable debug : bool.
Variable host_do : list event -> xact.
Variable child_do : list event -> cact.
Variables (fi i b k i' b' : Z) (rest : list Z) (l : list event) (c : bool).
Hypothesis throws : host_do l = XThrow c.
Hypothesis goes_on : host_do (l ++ [EThrow]) = XDo (HCall i' b').

(** The handler of callback k, made while the library loads, runs. *)
Definition loading_handler (p : cstate) : conf :=
  Conf (Shared 1 fi 0 0 0 false false false) HUser [FLoad i b k] p [KCb k; KLoad rest] [] [] l.

Inductive GInv : conf -> Prop :=
| G_start p : parked 1 p -> GInv (loading_handler p)
| G_thrown p : parked 1 p ->
    GInv (Conf (Shared 1 fi 0 0 0 false false false) HUser [] p [KCb k; KLoad rest] [] [] (l ++ [EThrow]))
| G_call p h : parked 1 p -> h = HLoop i' b' \/ h = HDepth i' b' \/ h = HLWait i' b' ->
    GInv (Conf (Shared 1 fi 0 0 0 false false false) h [] p [KCb k; KLoad rest] [] [] ((l ++ [EThrow]) ++ [EReq i' b'])).

Lemma GInv_step s s' : GInv s -> xstep debug false host_do child_do s s' -> GInv s'.
Proof.
  intros HI St. destruct HI; inversion St as [f a a' H'|f a a' H']; subst;
    repeat match goal with [ H : parked _ _ |- _ ] => destruct H | [ H : _ \/ _ |- _ ] => destruct H end; subst;
    unfold xhost_step, loading_handler, plain in H'; cbn in H'; rewrite ?throws, ?goes_on in H'; try discriminate;
    try (destruct c); rewrite ?andb_false_r in H'; try (destruct f; try discriminate);
    try (injection H' as <-); cbn; try (solve [constructor; unfold parked; auto]); try discriminate.
Qed.

(** C73, limit. If the handler of a callback made while the library loads throws,
    the sandbox is never answered and the next call blocks for good. *)
Theorem loading_throw_hangs p s' :
  p = CChk 1 \/ p = CWait 1 -> xreach debug false host_do child_do (loading_handler p) s' ->
  exists y, log s' ++ y = l ++ [EThrow; EReq i' b'].
Proof.
  intros Hp R. assert (HI : GInv s') by (induction R; [constructor; auto|eapply GInv_step; eauto]).
  destruct HI; cbn [log loading_handler]; eexists; rewrite <- ?app_assoc; reflexivity.
Qed.
End Loading.

(** ** Concrete executions *)
Fixpoint xexec debug host_do child_do (sched : list (bool * bool)) (s : conf) : conf :=
  match sched with
  | [] => s
  | (who, fail) :: t =>
    match (if who then xhost_step debug false host_do fail s else child_step debug child_do fail s) with
    | Some s' => xexec debug host_do child_do t s'
    | None => xexec debug host_do child_do t s
    end
  end.
Lemma xexec_reach debug host_do child_do sched s0 s :
  xreach debug false host_do child_do s0 s ->
  xreach debug false host_do child_do s0 (xexec debug host_do child_do sched s).
Proof.
  revert s. induction sched as [|[who fail] t IH]; intros s R; cbn; auto.
  destruct who.
  - destruct (xhost_step debug false host_do fail s) eqn:E; auto.
    apply IH. eapply xreach_step; eauto. eapply xstep_host; eauto.
  - destruct (child_step debug child_do fail s) eqn:E; auto.
    apply IH. eapply xreach_step; eauto. eapply xstep_child; eauto.
Qed.
Definition turns (n : nat) : list (bool * bool) := concat (repeat [(true, true); (false, true)] n).

(** A host whose handler of callback 7 calls function 3, whose callback's handler
    throws; the top level then calls function 2 and destroys the library. *)
Definition was_invoked (l : list event) : bool :=
  existsb (fun e => match e with EInvoke _ _ => true | _ => false end) l.
Definition wild_host (caught : bool) (l : list event) : xact :=
  match rev l with
  | [] => XDo (HCall 1 100)
  | EHandle k :: t =>
    if was_invoked t then (if k =? 7 then XDo (HCall 3 300) else if k =? 6 then XThrow caught else XDo (HReturn 9))
    else XDo (HReturn 5)
  | EThrow :: _ => if caught then XDo (HReturn 11) else XDo (HCall 2 200)
  | _ => XDo (HReturn 0)
  end.
Definition wild_child (l : list event) : cact :=
  match rev l with
  | EInvoke i _ :: _ => if i =? 1 then CCallback 7 else if i =? 3 then CCallback 6 else CCallback 8
  | _ => CReturn
  end.

Lemma wild_nonnull c l i b : wild_host c l = XDo (HCall i b) -> b <> 0.
Proof.
  unfold wild_host. destruct (rev l) as [|e t]; [intros H; injection H as <- <-; discriminate|].
  destruct e; try discriminate.
  - destruct (was_invoked t); [|discriminate]. destruct (_ =? 7); [intros H; injection H as <- <-; discriminate|].
    destruct (_ =? 6); discriminate.
  - destruct c; [discriminate|]. intros H; injection H as <- <-; discriminate.
Qed.
Lemma wild_nocatch l : wild_host false l <> XThrow true.
Proof.
  unfold wild_host. destruct (rev l) as [|e t]; [discriminate|]. destruct e; try discriminate.
  destruct (was_invoked t); [|discriminate]. destruct (_ =? 7); [discriminate|]. destruct (_ =? 6); discriminate.
Qed.
Lemma wild_quiet c l k : no_invoke l -> exists r, wild_host c (l ++ [EHandle k]) = XDo (HReturn r).
Proof.
  intros N. exists 5. unfold wild_host. rewrite rev_app_distr. cbn [rev app].
  destruct (was_invoked (rev l)) eqn:E; [|reflexivity].
  apply existsb_exists in E as [e [He X]]. destruct e; try discriminate X.
  exfalso. apply (N i b). apply in_rev. auto.
Qed.

(** Two handlers are abandoned at once, the next call works, and so does the
    shutdown. *)
Example wild_runs :
  let s := xexec true (wild_host false) wild_child (turns 200) (fresh [3]) in
  hpc s = HEnd /\ cpc s = CExit /\ depth (sh s) = 2 /\
  log s = [EReq 1 100; ECallback 3; EHandle 3; EHandled 3 5; EResume 3 5;
           EInvoke 1 100; ECallback 7; EHandle 7;
             EReq 3 300; EInvoke 3 300; ECallback 6; EHandle 6; EThrow;
           EReq 2 200; EInvoke 2 200; ECallback 8; EHandle 8; EHandled 8 9; EResume 8 9; EReturn 2 200; EDone 2 200;
           EQuit].
Proof. vm_compute. repeat split. Qed.

(** The host's top level right after the throw. *)
Example wild_top :
  let s := xexec true (wild_host false) wild_child (turns 60) (fresh [3]) in
  hpc s = HUser /\ hstk s = [] /\ loaded (sh s) = true /\ depth (sh s) = 2 /\ length (cstk s) = 4%nat
  /\ existsb (fun e => match e with EThrow => true | _ => false end) (log s) = true
  /\ history_from [3] (log s).
Proof.
  cbn zeta. split; [vm_compute; reflexivity|]. split; [vm_compute; reflexivity|].
  split; [vm_compute; reflexivity|]. split; [vm_compute; reflexivity|]. split; [vm_compute; reflexivity|].
  split; [vm_compute; reflexivity|].
  destruct (throwing_handlers_history true (wild_host false) wild_child [3]
    (wild_nonnull false) wild_nocatch (fun l k _ => wild_quiet false l k)
    (xexec true (wild_host false) wild_child (turns 60) (fresh [3]))) as [N|H];
    [apply xexec_reach; constructor|vm_compute; reflexivity|vm_compute; reflexivity| |exact H].
  exfalso. apply (N 1 100). vm_compute. auto.
Qed.

(** The same host with the exception caught by the handler of callback 7. *)
Definition before : list event :=
  [EReq 1 100; ECallback 3; EHandle 3; EHandled 3 5; EResume 3 5;
   EInvoke 1 100; ECallback 7; EHandle 7; EReq 3 300; EInvoke 3 300; ECallback 6; EHandle 6].
Definition at_throw : conf := inner_handler 0 3 1 100 7 3 300 6 [] [] before (CChk 2).
Example at_throw_reached : xreach true false (wild_host true) wild_child (fresh [3]) at_throw.
Proof.
  assert (E : at_throw = xexec true (wild_host true) wild_child (turns 59) (fresh [3])) by (vm_compute; reflexivity).
  rewrite E. apply xexec_reach. constructor.
Qed.
Example caught_runs :
  log (xexec true (wild_host true) wild_child (turns 300) (fresh [3]))
  = before ++ [EThrow; EHandled 7 11; EResume 6 11; EReturn 3 300].
Proof. vm_compute. reflexivity. Qed.

(** C73 refuted for exceptions a handler catches: a host that does nothing else
    wrong gets stuck in its first call, whose callback 7 never resumes. *)
Theorem caught_exception_refuted :
  xreach true false (wild_host true) wild_child (fresh [3]) at_throw
  /\ forall s', xreach true false (wild_host true) wild_child at_throw s' ->
       ~ In (EDone 1 100) (log s') /\ (forall r, ~ In (EResume 7 r) (log s')).
Proof.
  split; [exact at_throw_reached|]. intros s' R.
  destruct (caught_exception_hangs true false (wild_host true) wild_child 0 3 1 100 7 3 300 6 11 [] [] before
    eq_refl eq_refl eq_refl (CChk 2) s' (or_introl eq_refl) R) as [y E].
  split; [|intros r]; intros X.
  - assert (Z : In (EDone 1 100) (log s' ++ y)) by (apply in_or_app; auto).
    rewrite E in Z. cbn in Z. intuition discriminate.
  - assert (Z : In (EResume 7 r) (log s' ++ y)) by (apply in_or_app; auto).
    rewrite E in Z. cbn in Z. intuition discriminate.
Qed.

(** A host whose handler throws while the library loads. *)
Definition hasty (l : list event) : xact :=
  match rev l with EHandle _ :: _ => XThrow false | _ => XDo (HCall 1 100) end.
Example hasty_reached :
  xreach true false hasty wild_child (fresh [3])
    (loading_handler 0 1 100 3 [] [EReq 1 100; ECallback 3; EHandle 3] (CChk 1))
  /\ hasty [EReq 1 100; ECallback 3; EHandle 3] = XThrow false.
Proof.
  split; [|reflexivity].
  assert (E : loading_handler 0 1 100 3 [] [EReq 1 100; ECallback 3; EHandle 3] (CChk 1)
    = xexec true hasty wild_child (turns 6) (fresh [3])) by (vm_compute; reflexivity).
  rewrite E. apply xexec_reach. constructor.
Qed.

Print Assumptions throwing_handlers_history.
Print Assumptions throwing_is_sequential.
Print Assumptions throwing_one_side_at_a_time.
Print Assumptions throwing_leaks_depth.
Print Assumptions throwing_never_aborts.
Print Assumptions throwing_makes_progress.
Print Assumptions throwing_shutdown_runs_nothing.
Print Assumptions throwing_shutdown_ends.
Print Assumptions caught_exception_misdelivers.
Print Assumptions caught_exception_hangs.
Print Assumptions caught_exception_refuted.
Print Assumptions loading_throw_hangs.
