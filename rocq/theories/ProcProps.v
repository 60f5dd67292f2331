(** The claimed theorems about process status (C35) and its limits (C36). *)
From Coq Require Import List ZArith Bool Lia Arith.
From Verif Require Import ProcModel ProcSpec ProcProof.
Import ListNotations.
Open Scope Z_scope.

(** C35. Whatever sequence of forks, exits, queries, waits and terminations of
    any number of libraries happens, with process numbers reused as the kernel
    likes, every call returns what the library's own process warrants; in
    particular no call takes the host down and no process that ended is reported
    running. *)
Theorem status_is_own_process os rs s :
  runs init os rs s -> Forall proper os -> rs = snd (spec_run os []).
Proof. intros R F. apply (runs_ok os rs s R F). Qed.

Lemma seen_step o s s' r i p c : nth_error (procs s) i = Some (Proc p (Some c)) ->
  step o s = (s', r) -> nth_error (procs s') i = Some (Proc p (Some c)).
Proof.
  intros H E.
  assert (Hl : (i < length (procs s))%nat) by (apply nth_error_Some; rewrite H; discriminate).
  assert (W : forall nh j n ch s1 r1, waitpid nh j n ch s = (s1, r1) -> nth_error (procs s1) i = Some (Proc p (Some c))).
  { intros nh j n ch s1 r1 W. unfold waitpid in W.
    destruct (nth_error (procs s) j) as [l|] eqn:Ej; [|injection W as <- <-; auto].
    destruct (seen l) as [c'|] eqn:Es; [injection W as <- <-; auto|].
    destruct (kwait nh (lpid l) ch (kids s)) as [k r'| | |]; try (injection W as <- <-; auto).
    destruct (kpid k =? lpid l); injection W as <- <-; cbn; auto.
    rewrite upd_nth. destruct (Nat.eqb_spec j i) as [->|N]; auto.
    rewrite H in Ej. injection Ej as <-. discriminate. }
  assert (T : forall j s1, nth_error (procs s1) i = Some (Proc p (Some c)) ->
                nth_error (procs (proc_terminate j s1)) i = Some (Proc p (Some c))).
  { intros j s1 X. unfold proc_terminate. destruct (nth_error (procs s1) j); auto. }
  destruct o; cbn in E; try (injection E as <- <-; cbn; auto).
  - rewrite nth_error_app1; auto.
  - rewrite nth_error_app1; auto.
  - eapply W; eauto.
  - eapply W; eauto.
  - unfold lib_terminate in E. destruct (waitpid true i0 intr choice s) as [s1 r1] eqn:E1.
    apply W in E1. destruct r1 as [[] ?| | |]; injection E as <- <-; auto.
Qed.

(** C35. Once a query has reported the exit, every later query and wait reports
    the same status and makes no system call at all, whatever happens in
    between. *)
Theorem status_sticky s i n ch s1 code os rs s2 :
  step (Query i n ch) s = (s1, RStatus true code) -> runs s1 os rs s2 ->
  forall n' ch', step (Query i n' ch') s2 = (s2, RStatus true code)
              /\ step (WaitFor i n' ch') s2 = (s2, RStatus true code).
Proof.
  intros E R n' ch'.
  assert (H : exists p, nth_error (procs s1) i = Some (Proc p (Some code))).
  { cbn in E. unfold waitpid in E. destruct (nth_error (procs s) i) as [l|] eqn:Ei; [|discriminate].
    destruct (seen l) as [c|] eqn:Es.
    - injection E as <- <-. exists (lpid l). rewrite Ei. destruct l; cbn in *; subst; auto.
    - destruct (kwait true (lpid l) ch (kids s)) as [k r'| | |]; try discriminate.
      destruct (kpid k =? lpid l); [|discriminate]. injection E as <- <-. exists (lpid l). cbn.
      rewrite upd_nth, Nat.eqb_refl.
      assert (Hl : (i < length (procs s))%nat) by (apply nth_error_Some; rewrite Ei; discriminate).
      apply Nat.ltb_lt in Hl. rewrite Hl. auto. }
  destruct H as [p H].
  assert (H2 : nth_error (procs s2) i = Some (Proc p (Some code))).
  { clear E. induction R as [|s0 os rs s3 o s4 r R IH P St]; auto.
    eapply seen_step; [|exact St]; auto. }
  cbn. unfold waitpid. rewrite H2. cbn. auto.
Qed.

(** C35. A library reaps only its own process and every process at most once. *)
Theorem reaped_once os rs s :
  runs init os rs s -> Forall proper os ->
  (forall i u, In (TReap i u) (trace s) -> i = u) /\ NoDup (reaps (trace s)).
Proof.
  intros R F. destruct (runs_ok os rs s R F) as [I _]. split; [|apply (i_once _ _ I)].
  intros i u X. apply (i_reap _ _ I i u X).
Qed.

(** C35. Terminating a library signals its own process or nothing: a process
    number that was given to another process is never used. *)
Theorem terminate_hits_own_process os rs s i p t :
  runs init os rs s -> Forall proper os -> In (TKill i p t) (trace s) -> t = Some i.
Proof. intros R F. destruct (runs_ok os rs s R F) as [I _]. apply (i_kill _ _ I). Qed.

Lemma runs_cons s o s1 r os rs s2 : possible o s -> step o s = (s1, r) -> runs s1 os rs s2 ->
  runs s (o :: os) (r :: rs) s2.
Proof.
  intros P E R. induction R as [s0|s0 os rs s3 o' s4 r' R IH P' E'].
  - apply (runs_snoc s [] [] s o s0 r); auto. apply runs_0.
  - apply (runs_snoc s (o :: os) (r :: rs) s3 o' s4 r'); auto.
Qed.

(** ChildProcess::terminate itself has no such protection. *)
Theorem raw_terminate_hits_own_process_refuted :
  exists os rs s, runs init os rs s /\ In (TKill 0 5 (Some 1%nat)) (trace s).
Proof.
  exists [Fork 5; Exits 0 0; Query 0 0 0; Fork 5; RawTerminate 0]. do 2 eexists. split.
  - eapply runs_cons; [split; [lia|cbn; tauto]|reflexivity|].
    eapply runs_cons; [eexists; left; reflexivity|reflexivity|].
    eapply runs_cons; [cbn; lia|reflexivity|].
    eapply runs_cons; [split; [lia|cbn; tauto]|reflexivity|].
    eapply runs_cons; [cbn; lia|reflexivity|]. apply runs_0.
  - cbn. tauto.
Qed.

Lemma spec_run_app a b w : spec_run (a ++ b) w =
  (fst (spec_run b (fst (spec_run a w))), snd (spec_run a w) ++ snd (spec_run b (fst (spec_run a w)))).
Proof.
  revert w. induction a as [|x a IH]; intros w; cbn; [destruct (spec_run b w); auto|].
  destruct (spec_step x w) as [w1 r]. rewrite IH. destruct (spec_run a w1). auto.
Qed.
Lemma ended_stays os w i raw : (i < length w)%nat -> state_of w i = Some raw ->
  (i < length (fst (spec_run os w)))%nat /\ state_of (fst (spec_run os w)) i = Some raw.
Proof.
  revert w. induction os as [|o os IH]; intros w L S; cbn; auto.
  destruct (spec_step o w) as [w1 r] eqn:E.
  assert (G : (i < length w1)%nat /\ state_of w1 i = Some raw).
  { destruct o; cbn in E; injection E as <- <-; auto; rewrite ?app_length, ?ends_length; split; try lia;
      try (unfold state_of; rewrite app_nth1; auto; fail);
      rewrite ends_state by auto; rewrite S; destruct (Nat.eqb _ _); auto. }
  destruct G as [L1 S1]. specialize (IH w1 L1 S1). destruct (spec_run os w1). exact IH.
Qed.

(** The reported code of a process that died from a signal is 0, as for a
    success: the two cannot be told apart. *)
Theorem signal_death_reports_zero os i sig os2 n ch rs s :
  runs init (os ++ [Exits i sig] ++ os2 ++ [Query i n ch]) rs s ->
  Forall proper (os ++ [Exits i sig] ++ os2 ++ [Query i n ch]) ->
  (i < length (fst (spec_run os [])))%nat -> state_of (fst (spec_run os [])) i = None ->
  0 <= sig < 128 -> last rs RDone = RStatus true 0.
Proof.
  intros R F L S B. rewrite (status_is_own_process _ _ _ R F).
  rewrite spec_run_app. set (w := fst (spec_run os [])) in *.
  cbn [snd]. change ([Exits i sig] ++ os2 ++ [Query i n ch]) with (Exits i sig :: os2 ++ [Query i n ch]).
  cbn [spec_run]. cbn [spec_step].
  destruct (ended_stays os2 (ends i sig w) i sig) as [L2 S2].
  { rewrite ends_length. auto. }
  { rewrite ends_state, Nat.eqb_refl, S by auto. auto. }
  rewrite spec_run_app. cbn [snd fst spec_run spec_step]. rewrite S2. cbn [report].
  rewrite (Z.div_small sig 256) by lia.
  rewrite app_comm_cons, app_assoc, last_last. reflexivity.
Qed.

(** ** C36: limits *)

(** Two threads that both looked at the cached status before either asked the
    kernel: once the process has ended, whichever asks first reaps it and the
    other takes the whole host process down. *)
Theorem concurrent_queries_exit_host s raw :
  t1 s = TChecked -> t2 s = TChecked -> rkid s = Some (Zombie raw) ->
  forall v k t, thread (rseen s) (rkid s) (t1 s) = Some (v, k, t) ->
    t = TReaped raw /\ exists v', thread v k (t2 s) = Some (v', k, TExitedHost).
Proof.
  intros H1 H2 H3 v k t E. rewrite H1, H3 in E. injection E as <- <- <-. split; auto.
  rewrite H2. cbn. eauto.
Qed.
(** Otherwise two threads asking at once are told the truth: whenever a query
    returns, it says the process has ended if and only if it has. *)
Lemma race_known s : race_reach race_init s -> (rseen s <> None -> rkid s = None) /\
  (forall r, t1 s = TReaped r \/ t2 s = TReaped r -> rkid s = None).
Proof.
  intros R. assert (I : exists s0, s0 = race_init /\ race_reach s0 s) by eauto. clear R. destruct I as (s0 & E & R).
  induction R as [s|s s1 s2 R IH St].
  - subst. cbn. split; [congruence|]. intros r [H|H]; discriminate.
  - destruct (IH E) as [A B]. clear IH.
    inversion St; subst; cbn [rseen rkid t1 t2].
    + destruct (t1 s1) eqn:T; cbn in H; try discriminate.
      * injection H as <- <- <-. split; auto. intros r [H|H]; [destruct (rseen s1); discriminate|eauto].
      * destruct (rkid s1) as [[|z]|] eqn:K; injection H as <- <- <-; (split; [auto|]); auto; intros r [H|H]; try discriminate; eauto.
      * injection H as <- <- <-. split; [|intros r [H|H]; [discriminate|eauto]]. intros _. eapply B; eauto.
    + destruct (t2 s1) eqn:T; cbn in H; try discriminate.
      * injection H as <- <- <-. split; auto. intros r [H|H]; [eauto|destruct (rseen s1); discriminate].
      * destruct (rkid s1) as [[|z]|] eqn:K; injection H as <- <- <-; (split; [auto|]); auto; intros r [H|H]; try discriminate; eauto.
      * injection H as <- <- <-. split; [|intros r [H|H]; [eauto|discriminate]]. intros _. eapply B; eauto.
    + split; [intros H0; rewrite (A H0) in H; discriminate|]. intros r' H0. rewrite (B _ H0) in H. discriminate.
    + split; auto. intros r [H0|H0]; [discriminate|eauto].
    + split; auto. intros r [H0|H0]; [eauto|discriminate].
Qed.
Theorem concurrent_queries_truthful s v k b : race_reach race_init s ->
  thread (rseen s) (rkid s) (t1 s) = Some (v, k, TDone b) \/ thread (rseen s) (rkid s) (t2 s) = Some (v, k, TDone b) ->
  (b = true <-> k <> Some Running).
Proof.
  intros R H. destruct (race_known s R) as [A B].
  assert (Q : forall t, t = t1 s \/ t = t2 s -> thread (rseen s) (rkid s) t = Some (v, k, TDone b) -> (b = true <-> k <> Some Running)).
  { intros t T E. destruct t; cbn in E; try discriminate.
    - destruct (rseen s) eqn:S; [|discriminate]. injection E as <- <- <-. rewrite A by discriminate. split; [discriminate|auto].
    - destruct (rkid s) as [[|z]|] eqn:K; try discriminate. injection E as <- <- <-. split; [discriminate|congruence].
    - injection E as <- <- <-. rewrite (B raw) by (destruct T; auto). split; [discriminate|auto]. }
  destruct H as [H|H]; [apply (Q (t1 s))|apply (Q (t2 s))]; auto.
Qed.
Print Assumptions concurrent_queries_truthful.
(** Once a query has said that the process has ended, every query that begins later
    says so too, whichever thread makes it: it does not ask the kernel again, which
    would end the host. *)
Lemma race_kept s s' : race_reach s s' -> rseen s <> None -> rseen s' <> None.
Proof.
  intros R. induction R as [s|s s1 s2 R IH St]; auto. intros H. specialize (IH H).
  inversion St as [? v k t E|? v k t E|? r E|? b E|? b E]; subst; cbn [rseen]; auto.
  - destruct (t1 s1); cbn in E; try discriminate; [|destruct (rkid s1) as [[|z]|]|]; injection E as <- <- <-; auto; discriminate.
  - destruct (t2 s1); cbn in E; try discriminate; [|destruct (rkid s1) as [[|z]|]|]; injection E as <- <- <-; auto; discriminate.
Qed.
Lemma race_recorded s : race_reach race_init s -> t1 s = TDone true \/ t2 s = TDone true -> rseen s <> None.
Proof.
  intros R. assert (I : exists s0, s0 = race_init /\ race_reach s0 s) by eauto. clear R. destruct I as (s0 & E0 & R).
  induction R as [s|s s1 s2 R IH St].
  - subst. cbn. intros [H|H]; discriminate.
  - specialize (IH E0). inversion St as [? v k t E|? v k t E|? r E|? b E|? b E]; subst; cbn [rseen t1 t2]; auto.
    + intros H. destruct (t1 s1) eqn:T; cbn in E; try discriminate.
      * injection E as <- <- <-. destruct (rseen s1); [discriminate|]. destruct H as [H|H]; [discriminate|apply IH; auto].
      * destruct (rkid s1) as [[|z]|]; injection E as <- <- <-; destruct H as [H|H]; try discriminate; apply IH; auto.
      * injection E as <- <- <-. discriminate.
    + intros H. destruct (t2 s1) eqn:T; cbn in E; try discriminate.
      * injection E as <- <- <-. destruct (rseen s1); [discriminate|]. destruct H as [H|H]; [apply IH; auto|discriminate].
      * destruct (rkid s1) as [[|z]|]; injection E as <- <- <-; destruct H as [H|H]; try discriminate; apply IH; auto.
      * injection E as <- <- <-. discriminate.
    + intros [H|H]; [discriminate|apply IH; auto].
    + intros [H|H]; [apply IH; auto|discriminate].
Qed.
Theorem concurrent_answer_remembered s s' : race_reach race_init s -> t1 s = TDone true \/ t2 s = TDone true ->
  race_reach s s' -> thread (rseen s') (rkid s') TStart = Some (rseen s', rkid s', TDone true).
Proof.
  intros R H R'. pose proof (race_kept _ _ R' (race_recorded _ R H)) as K. cbn. destruct (rseen s'); [reflexivity|congruence].
Qed.
Print Assumptions concurrent_answer_remembered.
(** A state in which it says something: one thread has recorded the status and
    the other is about to return. *)
Example concurrent_queries_ex : exists s v k, race_reach race_init s /\ rseen s = Some 3 /\
  thread (rseen s) (rkid s) (t2 s) = Some (v, k, TDone true).
Proof.
  exists (Race (Some 3) None (TDone true) TStart). do 2 eexists. split; [|split; reflexivity].
  eapply rr_1; [eapply rr_1; [eapply rr_1; [eapply rr_1; [apply rr_0|]|]|]|].
  - eapply race_1. reflexivity.
  - eapply race_exit with (r := 768). reflexivity.
  - eapply race_1. reflexivity.
  - eapply (race_1 (Race None None (TReaped 768) TStart)). reflexivity.
Qed.
(** ... and this is reachable. *)
Theorem concurrent_queries_safe_refuted :
  exists s, race_reach race_init s /\ t2 s = TExitedHost.
Proof.
  eexists. split.
  - eapply rr_1; [eapply rr_1; [eapply rr_1; [eapply rr_1; [eapply rr_1; [apply rr_0|]|]|]|]|].
    + eapply race_1. reflexivity.
    + eapply race_2. reflexivity.
    + eapply race_exit with (r := 0). reflexivity.
    + eapply race_1. reflexivity.
    + eapply race_2. reflexivity.
  - reflexivity.
Qed.
(** A failed vfork goes unnoticed.  Terminating that library then signals every
    process the host may signal, with SIGKILL (9) ... *)
Theorem failed_fork_terminate_kills_all s i n ch :
  nth_error (procs s) i = Some (Proc (-1) None) -> kids s <> [] ->
  (forall k, In k (kids s) -> kst k = Running) ->
  exists s', step (Terminate i n ch) s = (s', RDone)
    /\ In (TKill i (-1) None) (trace s')
    /\ kids s' = map (fun k => Kid (uid k) (kpid k) (Zombie 9)) (kids s).
Proof.
  intros H N A.
  assert (F : filter is_zombie (kids s) = []).
  { induction (kids s) as [|k t IH]; auto. cbn. unfold is_zombie at 1. rewrite A by (left; auto).
    destruct t as [|k2 t]; auto. apply IH; [discriminate|]. intros; apply A; right; auto. }
  cbn. unfold lib_terminate, waitpid. rewrite H. cbn [seen lpid]. unfold kwait. rewrite F, Z.eqb_refl.
  assert (nth_error (@nil kid) ch = None) as -> by (destruct ch; auto).
  destruct (kids s) as [|k t] eqn:E; [contradiction|].
  unfold proc_terminate. cbn [procs]. rewrite H. eexists. split; [reflexivity|]. cbn [trace kids lpid]. split.
  - apply in_or_app. right. left. reflexivity.
  - apply map_ext_in. intros k' I. unfold killed. rewrite (A k' I). reflexivity.
Qed.
(** ... with no other child, asking for its status takes the host down ... *)
Theorem failed_fork_query_exits_host s i n ch :
  nth_error (procs s) i = Some (Proc (-1) None) -> kids s = [] ->
  snd (step (Query i n ch) s) = RExit.
Proof.
  intros H E. cbn. unfold waitpid. rewrite H. cbn [seen lpid]. rewrite E. unfold kwait. cbn.
  destruct ch; reflexivity.
Qed.
(** ... and it can reap another library's process, whose own next query then
    takes the host down. *)
Theorem failed_fork_steals_refuted :
  exists os rs s, runs init os rs s /\ os = [Fork 5; ForkFails; Exits 0 0; Query 1 0 0; Query 0 0 0]
    /\ rs = [RDone; RDone; RDone; RStatus false 0; RExit].
Proof.
  do 3 eexists. split; [|split; reflexivity].
  eapply runs_cons; [split; [lia|cbn; tauto]|reflexivity|].
  eapply runs_cons; [exact I|reflexivity|].
  eapply runs_cons; [eexists; left; reflexivity|reflexivity|].
  eapply runs_cons; [cbn; lia|reflexivity|].
  eapply runs_cons; [cbn; lia|reflexivity|]. apply runs_0.
Qed.

(** A concrete history meeting the hypotheses: number 5 is reused, library 0
    keeps its status and library 1 is terminated. *)
Example proc_ex :
  exists s, runs init [Fork 5; Query 0 2 0; Exits 0 768; Query 0 0 0; Fork 5; Query 0 0 0; Terminate 1 0 0; Query 1 0 0;
                       WaitFor 1 0 0] 
    [RDone; RStatus false 0; RDone; RStatus true 3; RDone; RStatus true 3; RDone; RStatus true 0; RStatus true 0] s
  /\ waits 0 (trace s) = 4%nat /\ In (TKill 1 5 (Some 1%nat)) (trace s).
Proof.
  eexists. split.
  - eapply runs_cons; [split; [lia|cbn; tauto]|reflexivity|].
    eapply runs_cons; [cbn; lia|reflexivity|].
    eapply runs_cons; [eexists; left; reflexivity|reflexivity|].
    eapply runs_cons; [cbn; lia|reflexivity|].
    eapply runs_cons; [split; [lia|cbn; tauto]|reflexivity|].
    eapply runs_cons; [cbn; lia|reflexivity|].
    eapply runs_cons; [cbn; lia|reflexivity|].
    eapply runs_cons; [cbn; lia|reflexivity|].
    eapply runs_cons; [cbn; lia|reflexivity|]. apply runs_0.
  - split; [reflexivity|cbn; tauto].
Qed.
Example proc_ex_failed :
  nth_error (procs (fst (step ForkFails (fst (step (Fork 5) init))))) 1 = Some (Proc (-1) None)
  /\ kids (fst (step ForkFails (fst (step (Fork 5) init)))) = [Kid 0 5 Running].
Proof. split; reflexivity. Qed.

Print Assumptions status_is_own_process.
Print Assumptions status_sticky.
Print Assumptions reaped_once.
Print Assumptions terminate_hits_own_process.
Print Assumptions raw_terminate_hits_own_process_refuted.
Print Assumptions signal_death_reports_zero.
Print Assumptions concurrent_queries_exit_host.
Print Assumptions concurrent_queries_safe_refuted.
Print Assumptions failed_fork_terminate_kills_all.
Print Assumptions failed_fork_query_exits_host.
Print Assumptions failed_fork_steals_refuted.
