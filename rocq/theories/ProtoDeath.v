(** The claimed theorems about a sandbox that died or does not answer (C33, C50)
    and the limits of the protocol. *)
From Coq Require Import List ZArith Bool Lia.
From Verif Require Import ProtoModel ProtoSpec ProtoProof ProtoLoad ProtoProgress ProtoProps.
Import ListNotations.
Open Scope Z_scope.

Lemma requests_app a b : requests (a ++ b) = (requests a + requests b)%nat.
Proof. unfold requests. rewrite filter_app, app_length. auto. Qed.

(** The host is in its own code, has thrown, was aborted or is done. *)
Definition stopped (s : conf) : Prop :=
  hpc s = HUser \/ hpc s = HThrew \/ hpc s = HAborted \/ hpc s = HEnd.

Section Dead.
Variable debug spurious : bool.
Variable host_do : list event -> hact.
Variable child_do : list event -> cact.
Notation stp := (step debug spurious host_do child_do).
Notation inev := (inevitable debug spurious host_do child_do).

Lemma gone_child fail s : gone (cpc s) = true -> child_step debug child_do fail s = None.
Proof. unfold child_step. destruct (cpc s); cbn; try discriminate; auto. Qed.

(** A dead sandbox leaves the host alone: one successor at most. *)
Lemma dead_later P s s1 : gone (cpc s) = true ->
  (exists f, host_step debug spurious host_do f s = Some s1) ->
  (forall f s', host_step debug spurious host_do f s = Some s' -> s' = s1) ->
  inev P s1 -> inev P s.
Proof.
  intros G [f E] U K. eapply inev_later; [eapply step_host; eauto|].
  intros s' H. destruct H as [f' s s' H|f' s s' H].
  - apply U in H. subst. auto.
  - rewrite gone_child in H by auto. discriminate.
Qed.

Variable c : cstate.
Hypothesis G : gone c = true.

Notation C sh h hs cs rq rs l := (Conf sh h hs c cs rq rs l).

Lemma dead_next P s s1 : cpc s = c ->
  host_step debug spurious host_do true s = Some s1 ->
  (host_step debug spurious host_do false s = Some s1 \/ host_step debug spurious host_do false s = None) ->
  inev P s1 -> inev P s.
Proof.
  intros Ec E F K. apply dead_later with (s1 := s1); eauto; [rewrite Ec; auto|].
  intros [] s' H; [congruence|]. destruct F as [F|F]; congruence.
Qed.

Lemma goto_loop v i b hs cs rq rs l P :
  loaded v = true -> inev P (C v (HSnap i b) hs cs rq rs l) -> inev P (C v (HLoop i b) hs cs rq rs l).
Proof.
  intros L K. apply dead_next with (s1 := C v (HSnap i b) hs cs rq rs l); auto;
    unfold host_step; cbn; rewrite L; auto.
Qed.

(** Everything up to the host's decision whether it may start the call. *)
Lemma call_start v i b hs cs rq rs l P :
  loaded v = true ->
  inev P (C (set_mbuf b (set_findex i v)) (HExec i b (depth v)) hs cs rq rs l) ->
  inev P (C v (HLoop i b) hs cs rq rs l).
Proof.
  intros L K. apply goto_loop; auto.
  eapply dead_next; [reflexivity|reflexivity|left; reflexivity|]. cbn.
  eapply dead_next; [reflexivity|reflexivity|left; reflexivity|]. cbn.
  eapply dead_next; [reflexivity|reflexivity|left; reflexivity|]. cbn. exact K.
Qed.

Lemma exec_cases v i b d hs cs rq rs l P :
  (debug && executing v = true -> inev P (C v HAborted hs cs rq rs l)) ->
  (debug && executing v = false -> cflag v <> 0 ->
     inev P (C (set_executing true v) HAborted hs cs rq rs l)) ->
  (debug && executing v = false -> cflag v = 0 ->
     inev P (C (set_cflag 1 (set_executing true v)) (HWait i b d) hs cs rq rs l)) ->
  inev P (C v (HExec i b d) hs cs rq rs l).
Proof.
  intros A B D. destruct (debug && executing v) eqn:E.
  - eapply dead_next; [reflexivity| |left|]; try (unfold host_step; cbn [hpc sh]; rewrite E; reflexivity); auto.
  - eapply dead_next; [reflexivity| |left|]; try (unfold host_step; cbn [hpc sh]; rewrite E; reflexivity).
    cbn. destruct (Z.eq_dec (cflag v) 0) as [F|F].
    + eapply dead_next; [reflexivity| |left|];
        try (unfold host_step, wake; cbn [hpc sh set_executing cflag]; rewrite F; reflexivity); auto.
    + assert (F' : (cflag v =? 0) = false) by (apply Z.eqb_neq; auto).
      eapply dead_next; [reflexivity| |left|];
        try (unfold host_step, wake; cbn [hpc sh set_executing cflag]; rewrite F'; reflexivity); auto.
Qed.

Lemma wait_cases v i b d hs cs rq rs l P :
  (pflag v <= 0 -> inev P (C v HThrew hs cs rq rs (l ++ [EThrow]))) ->
  (0 < pflag v -> inev P (C (set_pflag (pflag v - 1) v) (HCheck i b d) hs cs rq rs l)) ->
  inev P (C v (HWait i b d) hs cs rq rs l).
Proof.
  intros A B. destruct (Z.ltb_spec 0 (pflag v)) as [F|F].
  - apply Z.ltb_lt in F as F'.
    eapply dead_next; [reflexivity| |left|];
      try (unfold host_step, wait; cbn [hpc sh]; rewrite F'; reflexivity); auto.
  - assert (F' : (0 <? pflag v) = false) by (apply Z.ltb_ge; auto).
    eapply dead_next with (s1 := C v (HPoll i b d) hs cs rq rs l); [reflexivity| |right|];
      try (unfold host_step, wait; cbn [hpc sh]; rewrite F'; reflexivity).
    eapply dead_next; [reflexivity| |left|];
      try (unfold host_step; cbn [hpc cpc]; rewrite G; reflexivity); auto.
Qed.

Lemma check_cases v i b d hs cs rq rs l P :
  inev P (C v HUser hs cs rq rs (l ++ [EDone i b])) ->
  (forall k r, rq = k :: r -> inev P (C v HUser (FSend i b d k :: hs) cs r rs (l ++ [EHandle k]))) ->
  inev P (C v (HDec i b d) hs cs rq rs l) ->
  inev P (C v (HCheck i b d) hs cs rq rs l).
Proof.
  intros A B D. destruct (d <? depth v) eqn:E.
  - eapply dead_next; [reflexivity| |left|]; try (unfold host_step; cbn [hpc sh]; rewrite E; reflexivity).
    destruct rq as [|k r]; (eapply dead_next; [reflexivity|reflexivity|left; reflexivity|]); cbn; auto.
  - eapply dead_next; [reflexivity| |left|]; try (unfold host_step; cbn [hpc sh]; rewrite E; reflexivity).
    auto.
Qed.

Lemma dec_cases v i b d hs cs rq rs l P :
  (cflag v <> 0 -> inev P (C (set_executing true (set_depth (depth v - 1) v)) HAborted hs cs rq rs l)) ->
  (cflag v = 0 -> inev P (C (set_cflag 1 (set_executing true (set_depth (depth v - 1) v))) (HWait i b d) hs cs rq rs l)) ->
  inev P (C v (HDec i b d) hs cs rq rs l).
Proof.
  intros A B.
  eapply dead_next; [reflexivity|reflexivity|left; reflexivity|]. cbn.
  eapply dead_next; [reflexivity|reflexivity|left; reflexivity|]. cbn.
  destruct (Z.eq_dec (cflag v) 0) as [F|F].
  - eapply dead_next; [reflexivity| |left|];
      try (unfold host_step, wake; cbn [hpc sh set_executing set_depth cflag]; rewrite F; reflexivity); auto.
  - assert (F' : (cflag v =? 0) = false) by (apply Z.eqb_neq; auto).
    eapply dead_next; [reflexivity| |left|];
      try (unfold host_step, wake; cbn [hpc sh set_executing set_depth cflag]; rewrite F'; reflexivity); auto.
Qed.

(** Calls into a dead sandbox whose token is still set, and in general. *)
Lemma stop_wait1 v i b d hs cs rq rs l : cflag v <> 0 -> inev stopped (C v (HWait i b d) hs cs rq rs l).
Proof.
  intros F. apply wait_cases; intros; [apply inev_now; right; left; reflexivity|].
  apply check_cases; intros; try (apply inev_now; left; reflexivity).
  apply dec_cases; cbn; intros; [apply inev_now; right; right; left; reflexivity|contradiction].
Qed.
Lemma stop_wait v i b d hs cs rq rs l : inev stopped (C v (HWait i b d) hs cs rq rs l).
Proof.
  apply wait_cases; intros; [apply inev_now; right; left; reflexivity|].
  apply check_cases; intros; try (apply inev_now; left; reflexivity).
  apply dec_cases; cbn; intros; [apply inev_now; right; right; left; reflexivity|].
  apply stop_wait1. cbn. discriminate.
Qed.
Lemma stop_exec v i b d hs cs rq rs l : inev stopped (C v (HExec i b d) hs cs rq rs l).
Proof.
  apply exec_cases; intros; try (apply inev_now; right; right; left; reflexivity). apply stop_wait.
Qed.
Lemma stop_dec v i b d hs cs rq rs l : inev stopped (C v (HDec i b d) hs cs rq rs l).
Proof.
  apply dec_cases; intros; [apply inev_now; right; right; left; reflexivity|apply stop_wait].
Qed.
Lemma stop_loop v i b hs cs rq rs l : loaded v = true -> inev stopped (C v (HLoop i b) hs cs rq rs l).
Proof. intros L. apply call_start; auto. apply stop_exec. Qed.
Lemma stop_wake v h i b d hs cs rq rs l :
  h = HWake i b d \/ h = HWake2 i b d -> inev stopped (C v h hs cs rq rs l).
Proof.
  intros Hh. destruct (Z.eq_dec (cflag v) 0) as [F|F]; [|apply Z.eqb_neq in F as F'].
  - eapply dead_next; [reflexivity| |left|]; try (unfold host_step, wake; destruct Hh; subst h; cbn [hpc sh];
      rewrite F; reflexivity). apply stop_wait.
  - eapply dead_next with (s1 := C v HAborted hs cs rq rs l); [reflexivity| |left|];
      try (unfold host_step, wake; destruct Hh; subst h; cbn [hpc sh]; rewrite F'; reflexivity).
    apply inev_now. right; right; left; reflexivity.
Qed.
Ltac st := eapply dead_next; [reflexivity|reflexivity|left; reflexivity|]; cbn.
Lemma stop_lwake v i b hs cs rq rs l : loaded v = true -> inev stopped (C v (HLWake i b) hs cs rq rs l).
Proof.
  intros L. destruct (Z.eq_dec (cflag v) 0) as [F|F]; [|apply Z.eqb_neq in F as F'].
  - eapply dead_next; [reflexivity| |left|]; try (unfold host_step, wake; cbn [hpc sh]; rewrite F; reflexivity).
    apply stop_loop. auto.
  - eapply dead_next with (s1 := C v HAborted hs cs rq rs l); [reflexivity| |left|];
      try (unfold host_step, wake; cbn [hpc sh]; rewrite F'; reflexivity).
    apply inev_now. right; right; left; reflexivity.
Qed.
Lemma stop_quit5 v hs cs rq rs l : inev stopped (C v HQuit5 hs cs rq rs l).
Proof.
  eapply dead_next with (s1 := C v HEnd hs cs rq rs l); [reflexivity| |left|];
    try (unfold host_step; cbn [hpc cpc]; rewrite G; reflexivity).
  apply inev_now. repeat right. reflexivity.
Qed.
Lemma stop_quit4 v hs cs rq rs l : inev stopped (C v HQuit4 hs cs rq rs l).
Proof.
  destruct (Z.eq_dec (cflag v) 0) as [F|F]; [|apply Z.eqb_neq in F as F'].
  - eapply dead_next; [reflexivity| |left|]; try (unfold host_step, wake; cbn [hpc sh]; rewrite F; reflexivity).
    apply stop_quit5.
  - eapply dead_next with (s1 := C v HAborted hs cs rq rs l); [reflexivity| |left|];
      try (unfold host_step, wake; cbn [hpc sh]; rewrite F'; reflexivity).
    apply inev_now. right; right; left; reflexivity.
Qed.
Lemma stop_quit3 v hs cs rq rs l : inev stopped (C v HQuit3 hs cs rq rs l).
Proof.
  destruct (debug && executing v) eqn:E;
    (eapply dead_next; [reflexivity| |left|]; try (unfold host_step; cbn [hpc sh]; rewrite E; reflexivity)).
  - apply inev_now. right; right; left; reflexivity.
  - apply stop_quit4.
Qed.

Lemma never_blocks v h hs cs rq rs l :
  loaded v = true -> (forall i b, h <> HDepth i b /\ h <> HLWait i b) -> inev stopped (C v h hs cs rq rs l).
Proof.
  intros L N. destruct h.
  - apply inev_now; left; reflexivity.
  - apply stop_loop; auto.
  - destruct (N i b) as [X _]; contradiction.
  - destruct (N i b) as [_ X]; contradiction.
  - destruct rq as [|k rq]; st; [|apply inev_now; left; reflexivity]. do 2 st. apply stop_lwake. auto.
  - do 2 st. apply stop_lwake. auto.
  - st. apply stop_lwake. auto.
  - apply stop_lwake. auto.
  - do 3 st. apply stop_exec.
  - do 2 st. apply stop_exec.
  - st. apply stop_exec.
  - apply stop_exec.
  - eapply stop_wake; eauto.
  - apply stop_wait.
  - eapply dead_next; [reflexivity| |left|]; try (unfold host_step; cbn [hpc cpc]; rewrite G; reflexivity).
    apply inev_now. right; left; reflexivity.
  - apply check_cases; intros; try (apply inev_now; left; reflexivity). apply stop_dec.
  - destruct rq as [|k rq]; st; [|apply inev_now; left; reflexivity]. apply stop_dec.
  - apply stop_dec.
  - st. eapply stop_wake; eauto.
  - eapply stop_wake; eauto.
  - eapply dead_next with (s1 := C v HEnd hs cs rq rs l); [reflexivity| |left|];
      try (unfold host_step; cbn [hpc cpc]; rewrite G; reflexivity).
    apply inev_now. repeat right. reflexivity.
  - st. apply stop_quit3.
  - apply stop_quit3.
  - apply stop_quit4.
  - apply stop_quit5.
  - apply inev_now. repeat right. reflexivity.
  - apply inev_now. right; left. reflexivity.
  - apply inev_now. right; right; left. reflexivity.
Qed.

(** A host that keeps calling. *)
Definition dies_within (l : list event) (n : nat) (s : conf) : Prop :=
  hpc s = HAborted /\ (requests (log s) <= requests l + n)%nat.
Hypothesis keeps : forall l, exists i b, host_do l = HCall i b.

Lemma abort1 v hs cs rq rs l n l0 : loaded v = true -> cflag v <> 0 ->
  (S (requests l) <= requests l0 + n)%nat -> inev (dies_within l0 n) (C v HUser hs cs rq rs l).
Proof.
  intros L F B. destruct (keeps l) as [i [b K]].
  eapply dead_next; [reflexivity| |left|]; try (unfold host_step; cbn [hpc log]; rewrite K; reflexivity).
  cbn. assert (D : forall v' hs', dies_within l0 n (C v' HAborted hs' cs rq rs (l ++ [EReq i b]))).
  { intros. split; auto. cbn [log]. rewrite requests_app. cbn [requests filter length]. lia. }
  apply call_start; auto. apply exec_cases; cbn; intros; try (solve [apply inev_now; auto]). contradiction.
Qed.

Lemma abort2 v hs cs rq rs l : loaded v = true -> inev (dies_within l 2) (C v HUser hs cs rq rs l).
Proof.
  intros L. destruct (Z.eq_dec (cflag v) 0) as [F|F]; [|apply abort1; auto; lia].
  destruct (keeps l) as [i [b K]].
  eapply dead_next; [reflexivity| |left|]; try (unfold host_step; cbn [hpc log]; rewrite K; reflexivity).
  cbn. assert (D : forall v' hs' rq', dies_within l 2 (C v' HAborted hs' cs rq' rs (l ++ [EReq i b]))).
  { intros. split; auto. cbn [log]. rewrite requests_app. cbn [requests filter length]. lia. }
  apply call_start; auto. apply exec_cases; cbn; intros; try (solve [apply inev_now; auto]).
  apply wait_cases; cbn; intros.
  - st. apply abort1; auto; [cbn; discriminate|]. rewrite !requests_app. unfold requests at 2 3. cbn [filter length]. lia.
  - apply check_cases; cbn; intros.
    + apply abort1; auto; [cbn; discriminate|]. rewrite !requests_app. unfold requests at 2 3. cbn [filter length]. lia.
    + apply abort1; auto; [cbn; discriminate|]. rewrite !requests_app. unfold requests at 2 3. cbn [filter length]. lia.
    + apply dec_cases; cbn; intros; [apply inev_now; apply D|discriminate].
Qed.
End Dead.

Section Claims.
Variable debug spurious : bool.
Variable host_do : list event -> hact.
Variable child_do : list event -> cact.
Notation inev := (inevitable debug spurious host_do child_do).

(** C33. Once the sandbox process is gone, a host that is past loading never
    waits for it: whatever it is doing, every execution soon reaches the host's
    own code again (the call returned, or a handler runs), an exception, the end
    of the destructor, or an abort. *)
Theorem dead_never_blocks s :
  gone (cpc s) = true -> loaded (sh s) = true ->
  (forall i b, hpc s <> HDepth i b /\ hpc s <> HLWait i b) ->
  inev stopped s.
Proof. destruct s. cbn. intros. apply never_blocks; auto. Qed.

(** C33. A call that is waiting when the sandbox dies without having answered
    throws. *)
Theorem dead_pending_call_throws s i b d :
  gone (cpc s) = true -> hpc s = HWait i b d -> pflag (sh s) = 0 ->
  inev (fun s' => hpc s' = HThrew /\ log s' = log s ++ [EThrow]) s.
Proof.
  destruct s. cbn. intros G -> P. apply wait_cases; auto; [|lia].
  intros _. apply inev_now. auto.
Qed.

(** C33. Destroying the library of a dead sandbox succeeds at once. *)
Theorem dead_destructor_returns s r :
  gone (cpc s) = true -> hpc s = HUser -> hstk s = [] -> host_do (log s) = HReturn r ->
  inev (fun s' => hpc s' = HEnd /\ log s' = log s ++ [EQuit]) s.
Proof.
  destruct s as [v h hs c cs rq rs l]. cbn. intros G -> -> E.
  eapply dead_next; [exact G|reflexivity| |left|]; try (unfold host_step; cbn [hpc log hstk]; rewrite E; reflexivity).
  eapply dead_next; [exact G|reflexivity| |left|];
    try (unfold host_step; cbn [hpc cpc]; rewrite G; reflexivity). apply inev_now. auto.
Qed.

(** C33 is false as stated for later calls: a host that keeps calling a dead
    sandbox is aborted at its first or second further call, from every state. *)
Theorem dead_later_calls_abort s :
  gone (cpc s) = true -> loaded (sh s) = true -> hpc s = HUser ->
  (forall l, exists i b, host_do l = HCall i b) ->
  inev (fun s' => hpc s' = HAborted /\ (requests (log s') <= requests (log s) + 2)%nat) s.
Proof. destruct s. cbn. intros G L -> K. apply abort2; auto. Qed.

(** A sandbox that dies while it loads: the first call polls forever ... *)
Theorem dead_loading_spins s i b s' :
  gone (cpc s) = true -> loaded (sh s) = false -> depth (sh s) <= 0 ->
  hpc s = HLoop i b \/ hpc s = HDepth i b ->
  reach debug spurious host_do child_do s s' ->
  (hpc s' = HLoop i b \/ hpc s' = HDepth i b) /\ log s' = log s
  /\ exists s'', step debug spurious host_do child_do s' s''.
Proof.
  intros G L D H R.
  assert (I : gone (cpc s') = true /\ loaded (sh s') = false /\ depth (sh s') <= 0 /\
              (hpc s' = HLoop i b \/ hpc s' = HDepth i b) /\ log s' = log s).
  { induction R as [|s1 s2 R IH St]; auto. destruct IH as [G1 [L1 [D1 [H1 E1]]]].
    assert (D' : (0 <? depth (sh s1)) = false) by (apply Z.ltb_ge; auto).
    destruct St as [f a a' K|f a a' K]; [|rewrite gone_child in K by auto; discriminate].
    unfold host_step in K. destruct H1 as [H1|H1]; rewrite H1, ?L1, ?D' in K; injection K as <-; cbn; auto 10. }
  destruct I as [G1 [L1 [D1 [H1 E1]]]]. split; auto. split; auto.
  assert (D' : (0 <? depth (sh s')) = false) by (apply Z.ltb_ge; auto).
  destruct H1 as [H1|H1]; eexists; eapply step_host with (fail := true); unfold host_step;
    rewrite H1, ?L1, ?D'; reflexivity.
Qed.

(** ... or sleeps forever, if the sandbox died just before it could wake it. *)
Theorem dead_loading_sleeps s i b s' :
  gone (cpc s) = true -> hpc s = HLWait i b -> pflag (sh s) <= 0 ->
  ~ step debug false host_do child_do s s'.
Proof.
  intros G H P St. assert (P' : (0 <? pflag (sh s)) = false) by (apply Z.ltb_ge; auto).
  destruct St as [f a a' K|f a a' K]; [|rewrite gone_child in K by auto; discriminate].
  unfold host_step, wait in K. rewrite H, P', andb_false_r in K. discriminate.
Qed.

(** C50. A sandbox that is alive and never answers blocks its caller forever:
    however long the host runs, it is still in that call. *)
Theorem silent_sandbox_blocks_call s i b d s' :
  gone (cpc s) = false -> hpc s = HWait i b d -> pflag (sh s) <= 0 ->
  host_alone debug spurious host_do s s' ->
  (hpc s' = HWait i b d \/ hpc s' = HPoll i b d) /\ log s' = log s.
Proof.
  intros G H P R. assert (P' : (0 <? pflag (sh s)) = false) by (apply Z.ltb_ge; auto).
  assert (I : sh s' = sh s /\ gone (cpc s') = false /\
              (hpc s' = HWait i b d \/ hpc s' = HPoll i b d) /\ log s' = log s); [|tauto].
  induction R as [|f s1 s2 R IH K]; auto. destruct IH as [E1 [G1 [H1 L1]]].
  unfold host_step, wait in K. destruct H1 as [H1|H1]; rewrite H1, ?E1, ?P', ?G1 in K.
  - destruct f; [injection K as <-; cbn; auto|discriminate].
  - injection K as <-. cbn. auto.
Qed.

(** C50. ... and blocks the destructor. *)
Theorem silent_sandbox_blocks_destructor s fail :
  gone (cpc s) = false -> hpc s = HQuit5 -> host_step debug spurious host_do fail s = None.
Proof. intros G H. unfold host_step. rewrite H, G. auto. Qed.

(** A handler of a callback made while loading that calls into the library: the
    host waits for a token nobody will send. *)
Theorem loading_handler_call_deadlocks s i b d s' :
  hpc s = HLWait i b -> cpc s = CChk d \/ cpc s = CWait d ->
  pflag (sh s) = 0 -> cflag (sh s) = 0 -> should_exit (sh s) = false ->
  reach debug false host_do child_do s s' -> hpc s' = HLWait i b /\ log s' = log s.
Proof.
  intros H C P F X R.
  assert (I : sh s' = sh s /\ (cpc s' = CChk d \/ cpc s' = CWait d) /\ hpc s' = HLWait i b /\ log s' = log s);
    [|tauto].
  induction R as [|s1 s2 R IH St]; auto. destruct IH as [E1 [C1 [H1 L1]]].
  destruct St as [f a a' K|f a a' K].
  - unfold host_step, wait in K. rewrite H1, E1, P, andb_false_r in K. discriminate.
  - unfold child_step, wait in K. destruct C1 as [C1|C1]; rewrite C1, ?E1, ?F, ?X in K; cbn in K.
    + injection K as <-. cbn. auto.
    + destruct f; [injection K as <-; cbn; auto|discriminate].
Qed.
End Claims.

Section Reachable.
Variable debug : bool.
Variable host_do : list event -> hact.
Variable child_do : list event -> cact.
Variable ks : list Z.
Hypothesis nonnull : forall l i b, host_do l = HCall i b -> b <> 0.
Hypothesis quiet : forall l k i b, In k ks -> no_invoke l -> host_do (l ++ [EHandle k]) <> HCall i b.

(** C33. If the sandbox dies while the host's own code runs, the host's next
    call throws.  (And the one after it aborts: the throwing call left its wake
    token set.) *)
Theorem dies_between_calls s i b :
  reach debug false host_do child_do (fresh ks) s ->
  loaded (sh s) = true -> hpc s = HUser -> host_do (log s) = HCall i b ->
  inevitable debug false host_do child_do
    (fun s' => hpc s' = HThrew /\ log s' = log s ++ [EReq i b; EThrow] /\ cflag (sh s') = 1) (child_dies s).
Proof.
  intros R L H E.
  destruct (depth_matches_nesting debug host_do child_do ks nonnull quiet s R L H) as [_ [F [P _]]].
  assert (X : executing (sh s) = false).
  { destruct (All_reach _ _ _ nonnull ks quiet s R) as [K|[c0 [LS HI]]].
    - destruct K; cbn in *; subst; try discriminate; auto. rewrite H in H0. discriminate.
    - destruct HI; cbn in *; subst; try discriminate; auto; unfold waiting, parked in *; cases; discriminate. }
  destruct s as [v h hs c cs rq rs l]. unfold child_dies. cbn in *. subst h.
  assert (G : gone CKilled = true) by reflexivity.
  eapply dead_next; [exact G|reflexivity| |left|]; try (unfold host_step; cbn [hpc log]; rewrite E; reflexivity).
  cbn. apply call_start; auto. apply exec_cases; auto; cbn.
  - rewrite X, andb_false_r. discriminate.
  - intros; contradiction.
  - intros _ _. apply wait_cases; auto; cbn; [|lia]. intros _. apply inev_now. cbn.
    rewrite <- app_assoc. auto.
Qed.
End Reachable.

(** Concrete executions.  A schedule names who moves and how a wait that finds
    no token goes; moves that are not possible are skipped. *)
Fixpoint exec (debug spurious : bool) host_do child_do (sched : list (bool * bool)) (s : conf) : conf :=
  match sched with
  | [] => s
  | (who, fail) :: t =>
    match (if who then host_step debug spurious host_do fail s else child_step debug child_do fail s) with
    | Some s' => exec debug spurious host_do child_do t s'
    | None => exec debug spurious host_do child_do t s
    end
  end.
Lemma exec_reach debug spurious host_do child_do sched s0 s :
  reach debug spurious host_do child_do s0 s ->
  reach debug spurious host_do child_do s0 (exec debug spurious host_do child_do sched s).
Proof.
  revert s. induction sched as [|[who fail] t IH]; intros s R; cbn; auto.
  destruct who.
  - destruct (host_step debug spurious host_do fail s) eqn:E; auto.
    apply IH. eapply reach_step; eauto. eapply step_host; eauto.
  - destruct (child_step debug child_do fail s) eqn:E; auto.
    apply IH. eapply reach_step; eauto. eapply step_child; eauto.
Qed.
Definition rounds (n : nat) : list (bool * bool) := concat (repeat [(true, true); (false, true)] n).

(** A host that calls function 1, whose callback handler calls function 2, and
    then destroys the library; the sandbox makes a callback while loading. *)
Definition invoked (l : list event) : bool :=
  existsb (fun e => match e with EInvoke _ _ => true | _ => false end) l.
Definition demo_host (l : list event) : hact :=
  match rev l with
  | [] => HCall 1 100
  | EHandle _ :: t => if invoked t then HCall 2 200 else HReturn 5
  | EDone 2 _ :: _ => HReturn 9
  | _ => HReturn 0
  end.
Definition demo_child (l : list event) : cact :=
  match rev l with EInvoke 1 _ :: _ => CCallback 7 | _ => CReturn end.

Lemma demo_nonnull l i b : demo_host l = HCall i b -> b <> 0.
Proof.
  unfold demo_host. destruct (rev l) as [|e t]; [intros H; injection H as <- <-; discriminate|].
  destruct e; try discriminate.
  - destruct (invoked t); intros H; [injection H as <- <-; discriminate|discriminate].
  - destruct i0; try discriminate. destruct p; try discriminate. destruct p; discriminate.
Qed.
Lemma demo_quiet l k i b : no_invoke l -> demo_host (l ++ [EHandle k]) <> HCall i b.
Proof.
  intros N. unfold demo_host. rewrite rev_app_distr. cbn [rev app].
  destruct (invoked (rev l)) eqn:E; [|intros Y; discriminate Y].
  apply existsb_exists in E as [e [He X]]. destruct e; try discriminate X.
  exfalso. apply (N i0 b0). apply in_rev. auto.
Qed.

Example demo_runs :
  let s := exec true false demo_host demo_child (rounds 100) (fresh [3]) in
  hpc s = HEnd /\ cpc s = CExit /\
  log s = [EReq 1 100; ECallback 3; EHandle 3; EHandled 3 5; EResume 3 5;
           EInvoke 1 100; ECallback 7; EHandle 7;
             EReq 2 200; EInvoke 2 200; EReturn 2 200; EDone 2 200;
           EHandled 7 9; EResume 7 9; EReturn 1 100; EDone 1 100; EQuit].
Proof. vm_compute. repeat split. Qed.

(** A state in the handler of a callback, two levels deep. *)
Example demo_nested :
  let s := exec true false demo_host demo_child (rounds 39) (fresh [3]) in
  loaded (sh s) = true /\ hpc s = HUser /\ length (hstk s) = 1%nat /\ depth (sh s) = 1 /\
  demo_host (log s) = HCall 2 200.
Proof. vm_compute. repeat split. Qed.
Example demo_dies_between_calls :
  let s := exec true false demo_host demo_child (rounds 39) (fresh [3]) in
  inevitable true false demo_host demo_child
    (fun s' => hpc s' = HThrew /\ log s' = log s ++ [EReq 2 200; EThrow] /\ cflag (sh s') = 1) (child_dies s).
Proof.
  apply dies_between_calls with (ks := [3]).
  - exact demo_nonnull.
  - intros l k i b _. apply demo_quiet.
  - apply exec_reach. constructor.
  - vm_compute. reflexivity.
  - vm_compute. reflexivity.
  - vm_compute. reflexivity.
Qed.

(** Reachable states for the theorems about pending calls, shutdown and loading. *)
Definition greedy (l : list event) : hact := HCall 1 100.
Definition tired (l : list event) : hact := match l with [] => HCall 1 100 | _ => HReturn 0 end.
Definition simple (l : list event) : cact := CReturn.
Example pending_reachable :
  let s := exec true false greedy simple (rounds 9) (fresh []) in
  hpc s = HWait 1 100 0 /\ pflag (sh s) = 0 /\ loaded (sh s) = true /\ gone (cpc s) = false.
Proof. vm_compute. repeat split. Qed.
Example quit_reachable :
  let s := exec true false tired simple (rounds 20 ++ repeat (true, true) 4) (fresh []) in
  hpc s = HQuit5 /\ gone (cpc s) = false /\ In (EInvoke 1 100) (log s) /\ In EQuit (log s).
Proof. vm_compute. repeat split; auto 10. Qed.
Example loading_reachable :
  let s := exec true false greedy simple (repeat (true, true) 1) (fresh []) in
  hpc s = HLoop 1 100 /\ loaded (sh s) = false /\ depth (sh s) <= 0.
Proof. vm_compute. repeat split; discriminate. Qed.

(** C33 refuted for later calls, witness: the sandbox dies between calls, the
    next call throws and the one after it aborts the host, in a release build. *)
Theorem dead_second_call_throws_refuted :
  exists s s', reach false false greedy simple (fresh []) s /\ loaded (sh s) = true /\ hpc s = HUser
    /\ reach false false greedy simple (child_dies s) s'
    /\ log s' = log s ++ [EReq 1 100; EThrow; EReq 1 100] /\ hpc s' = HAborted.
Proof.
  set (s := exec false false greedy simple (rounds 19) (fresh [])).
  exists s, (exec false false greedy simple (repeat (true, true) 40) (child_dies s)).
  split; [apply exec_reach; constructor|]. split; [vm_compute; reflexivity|].
  split; [vm_compute; reflexivity|]. split; [apply exec_reach; constructor|].
  vm_compute. split; reflexivity.
Qed.

(** C33 refuted, witness: a call into a dead sandbox reports success.  The
    sandbox answered a call and died between the host's timed-out wait and its
    check; that call throws, and the next one consumes the old answer. *)
Theorem dead_call_never_succeeds_refuted :
  exists s s', reach false false greedy simple (fresh []) s /\ gone (cpc s) = false
    /\ reach false false greedy simple (child_dies s) s'
    /\ log s' = log s ++ [EThrow; EReq 1 100; EDone 1 100].
Proof.
  set (s := exec false false greedy simple (rounds 16 ++ [(false, true)]) (fresh [])).
  exists s, (exec false false greedy simple (repeat (true, true) 11) (child_dies s)).
  split; [apply exec_reach; constructor|]. split; [vm_compute; reflexivity|].
  split; [apply exec_reach; constructor|]. vm_compute. reflexivity.
Qed.

(** C32 needs the loading loop's wait not to fail: its result is ignored, so one
    spurious return makes a later call return before its function has started. *)
Definition answering (l : list event) : hact :=
  match rev l with EHandle _ :: _ => HReturn 5 | _ => HCall 1 100 end.
Theorem spurious_load_wait_breaks_calls :
  exists s, reach false true answering simple (fresh [3]) s
    /\ In (EDone 1 100) (log s) /\ no_invoke (log s).
Proof.
  exists (exec false true answering simple
    (repeat (false, true) 2 ++ repeat (true, true) 10 ++ repeat (false, true) 14 ++ repeat (true, true) 12)
    (fresh [3])).
  split; [apply exec_reach; constructor|]. split; [vm_compute; auto 10|].
  intros i b H. vm_compute in H. intuition discriminate.
Qed.

(** The deadlock of a loading handler that calls, reached from the start. *)
Example loading_handler_call_reachable :
  let s := exec true false greedy simple (rounds 11) (fresh [3]) in
  hpc s = HLWait 1 100 /\ cpc s = CWait 1 /\ pflag (sh s) = 0 /\ cflag (sh s) = 0 /\ should_exit (sh s) = false.
Proof. vm_compute. repeat split. Qed.

Print Assumptions calls_nest_properly.
Print Assumptions calls_are_sequential.
Print Assumptions user_code_decides.
Print Assumptions one_side_at_a_time.
Print Assumptions depth_matches_nesting.
Print Assumptions no_protocol_aborts.
Print Assumptions calls_make_progress.
Print Assumptions calls_take_bounded_steps.
Print Assumptions shutdown_runs_nothing.
Print Assumptions shutdown_ends.
Print Assumptions dead_never_blocks.
Print Assumptions dead_pending_call_throws.
Print Assumptions dead_destructor_returns.
Print Assumptions dead_later_calls_abort.
Print Assumptions dies_between_calls.
Print Assumptions dead_second_call_throws_refuted.
Print Assumptions dead_call_never_succeeds_refuted.
Print Assumptions dead_loading_spins.
Print Assumptions dead_loading_sleeps.
Print Assumptions silent_sandbox_blocks_call.
Print Assumptions silent_sandbox_blocks_destructor.
Print Assumptions loading_handler_call_deadlocks.
Print Assumptions spurious_load_wait_breaks_calls.
