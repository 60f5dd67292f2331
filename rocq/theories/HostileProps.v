(** The claimed theorems about a hostile sandbox and the host's control flow
    (C53, C54). *)
From Coq Require Import List ZArith Bool Lia.
From Verif Require Import ProtoModel HostileModel HostileSpec.
Import ListNotations.
Open Scope Z_scope.

Fixpoint below (fs : list hframe) : list item :=
  match fs with
  | [] => []
  | FLoad i b k :: r => OpHandler k :: OpCall i b :: below r
  | FSend i b d k :: r => OpHandler k :: OpCall i b :: below r
  end.
(** What is open at a control point. *)
Definition opens (h : hstate) (fs : list hframe) : list item :=
  match h with
  | HUser => below fs
  | HLoop i b | HDepth i b | HLWait i b | HLHandle i b | HLDec i b | HLExec i b | HLWake i b | HSnap i b
  | HIdx i b _ | HBuf i b _ | HExec i b _ | HWake i b _ | HWait i b _ | HPoll i b _ | HCheck i b _
  | HHandle i b _ | HDec i b _ | HExec2 i b _ | HWake2 i b _ => OpCall i b :: below fs
  | HQuit1 | HQuit2 | HQuit3 | HQuit4 | HQuit5 | HEnd => [Closed]
  | HThrew => []
  | HAborted => []
  end.

Section P.
Variable debug spurious : bool.
Variable hd : list event -> hact.

Ltac cases := repeat match goal with
  | H : match ?x with _ => _ end = Some _ |- _ => destruct x eqn:?; try discriminate
  | H : (if ?x then _ else _) = Some _ |- _ => destruct x eqn:?; try discriminate
  end.

Lemma below_top fs : below fs = [] /\ fs = [] \/ exists k t, below fs = OpHandler k :: t.
Proof. destruct fs as [|[] fs]; cbn; eauto. Qed.

Definition inv (sent got : list Z) (s : conf) : Prop :=
  (exists st, nest (log s) st /\ (hpc s = HAborted \/ st = opens (hpc s) (hstk s)))
  /\ handled (log s) ++ reqs s = sent /\ results (log s) = got ++ resps s.

Lemma inv_host sent got fail s s' : host_step debug spurious hd fail s = Some s' -> inv sent got s -> inv sent got s'.
Proof.
  destruct s as [v h hs c cs rq rs l]. unfold inv. cbn [sh hpc hstk cpc cstk reqs resps log].
  intros K [[st [N O]] [Q R]]. unfold host_step in K. cbn [sh hpc hstk cpc cstk reqs resps log] in K.
  destruct h; try discriminate; (destruct O as [O|O]; [discriminate|]); subst st; cbn [opens] in N; cases;
    injection K as <-; cbn [sh hpc hstk cpc cstk reqs resps log opens below];
    unfold handled, results in *; rewrite ?flat_map_app; cbn [flat_map app]; rewrite ?app_nil_r, <- ?app_assoc; rewrite ?app_nil_r in Q; cbn [app];
    try (split; [eexists; split; [exact N|right; reflexivity]|split; assumption]);
    try (split; [eexists; split; [exact N|left; reflexivity]|split; assumption]).
  - (* a call starts *)
    split; [|split; assumption]. eexists; split; [|right; reflexivity].
    destruct (below_top hs) as [[E1 E2]|[k [t E1]]]; rewrite E1 in *; [apply nest_req_top|apply nest_req]; auto.
  - (* destruction *)
    split; [|split; assumption]. eexists; split; [apply nest_quit; exact N|right; reflexivity].
  - (* handlers end *)
    split; [eexists; split; [eapply nest_handled; exact N|right; reflexivity]|]. split; auto. rewrite R, app_assoc. auto.
  - split; [eexists; split; [eapply nest_handled; exact N|right; reflexivity]|]. split; auto. rewrite R, app_assoc. auto.
  - (* handlers start *)
    split; [eexists; split; [eapply nest_handle; exact N|right; reflexivity]|]. split; auto.
  - split; [eexists; split; [eapply nest_throw; exact N|right; reflexivity]|]. split; auto.
  - split; [eexists; split; [eapply nest_done; exact N|right; reflexivity]|]. split; auto.
  - split; [eexists; split; [eapply nest_handle; exact N|right; reflexivity]|]. split; auto.
Qed.
Lemma inv_hostile sent got s : hostile debug spurious hd (fresh []) sent got s -> inv sent got s.
Proof.
  induction 1 as [|sent got fail s s' H IH K|sent got s v new n H IH G|sent got s H IH G].
  - split; [exists []; split; [constructor|right; reflexivity]|]. split; reflexivity.
  - eapply inv_host; eauto.
  - destruct IH as [N [Q R]]. unfold meddle, inv. cbn [log hpc hstk reqs resps]. split; [exact N|]. split.
    + rewrite app_assoc, Q. auto.
    + rewrite R, <- app_assoc, firstn_skipn. auto.
  - exact IH.
Qed.

(** C53. Whatever the sandbox does to the shared header and the callback socket,
    the host's code sees properly nested calls and handlers: a handler runs only
    inside a call, every call and handler ends before what surrounds it goes on,
    and the library is destroyed only when nothing is open. *)
Theorem host_control_is_nested sent got s :
  hostile debug spurious hd (fresh []) sent got s -> exists st, nest (log s) st.
Proof. intros H. destruct (inv_hostile _ _ _ H) as [[st [N _]] _]. eauto. Qed.
(** C53. The host's own code runs only at top level or in an open handler: while
    a call is innermost, nothing after it has run. *)
Theorem host_code_waits_for_calls sent got s :
  hostile debug spurious hd (fresh []) sent got s -> hpc s = HUser ->
  exists st, nest (log s) st /\ match st with OpCall _ _ :: _ | Closed :: _ => False | _ => True end.
Proof.
  intros H U. destruct (inv_hostile _ _ _ H) as [[st [N [X|X]]] _]; [congruence|]. exists st. split; auto.
  subst st. rewrite U. cbn. destruct (below_top (hstk s)) as [[-> _]|[k [t ->]]]; auto.
Qed.
(** C53. Handlers run for exactly the requests the sandbox sent, in order and at
    most once each; the rest are still waiting. *)
Theorem handlers_follow_requests sent got s :
  hostile debug spurious hd (fresh []) sent got s -> handled (log s) ++ reqs s = sent.
Proof. intros H. apply (inv_hostile _ _ _ H). Qed.
(** C53. All the sandbox ever receives on the callback socket are the results of
    finished handlers, in order and at most once each. *)
Theorem replies_are_results sent got s :
  hostile debug spurious hd (fresh []) sent got s -> got ++ resps s = results (log s).
Proof. intros H. symmetry. apply (inv_hostile _ _ _ H). Qed.
(** C53. The host stores nothing but documented values in the shared header. *)
Theorem host_writes_documented sent got s fail s' :
  hostile debug spurious hd (fresh []) sent got s -> host_step debug spurious hd fail s = Some s' ->
  exists st, nest (log s) st /\ documented_write st (sh s) (sh s').
Proof.
  intros H K. destruct (inv_hostile _ _ _ H) as [[st [N O]] _]. exists st. split; auto. clear H N.
  destruct s as [v h hs c cs rq rs l]. unfold host_step, wake, wait in K. cbn [sh hpc hstk cpc cstk reqs resps log] in *.
  destruct h; try discriminate; (destruct O as [O|O]; [discriminate|]); subst st; cbn [opens]; cases;
    repeat match goal with H : (if ?x then _ else _) = Some _ |- _ => destruct x eqn:?; [|discriminate] end;
    repeat match goal with H : Some _ = Some _ |- _ => injection H as <- end; cbn [sh];
    try (constructor; fail); try (econstructor; reflexivity); try (apply w_child; apply Z.eqb_eq; assumption).
Qed.

End P.

(** *** Limits *)
Lemma more_host debug spurious hd a sent got s fail s' : hostile debug spurious hd a sent got s -> host_step debug spurious hd fail s = Some s' ->
  hostile debug spurious hd a sent got s'.
Proof. intros. econstructor; eauto. Qed.
Fixpoint hosts (debug spurious : bool) (hd : list event -> hact) (n : nat) (s : conf) : option conf :=
  match n with
  | O => Some s
  | S n => match host_step debug spurious hd true s with Some s' => hosts debug spurious hd n s' | None => None end
  end.
Lemma hosts_run debug spurious hd n : forall a sent got s s', hostile debug spurious hd a sent got s -> hosts debug spurious hd n s = Some s' -> hostile debug spurious hd a sent got s'.
Proof.
  induction n as [|n IH]; cbn; intros a sent got s s' H K; [congruence|].
  destruct (host_step debug spurious hd true s) eqn:E; [|discriminate]. eapply IH; [|exact K]. eapply more_host; eauto.
Qed.

(** C54, limit. At every call the sandbox can make the host believe that the
    function ran, without running anything. *)
Theorem call_can_be_faked debug spurious hd s i b :
  gone (cpc s) = false -> hpc s = HLoop i b ->
  exists s', hostile debug spurious hd s [] [] s' /\ hpc s' = HUser /\ hstk s' = hstk s /\ log s' = log s ++ [EDone i b].
Proof.
  destruct s as [v h hs c cs rq rs l]. cbn. intros G ->.
  set (v0 := Shared 0 0 0 0 1 false false true).
  assert (H0 : hostile debug spurious hd (Conf v (HLoop i b) hs c cs rq rs l) [] [] (Conf v0 (HLoop i b) hs c cs rq rs l)).
  { pose proof (hostile_move debug spurious hd (Conf v (HLoop i b) hs c cs rq rs l) [] [] _ v0 [] 0 (hostile_0 _ _ _ _) G) as X.
    unfold meddle in X. cbn in X. rewrite app_nil_r in X. exact X. }
  eexists. split; [|split; [|split]].
  - eapply (hosts_run _ _ _ 8); [exact H0|]. clear H0. destruct debug, c; try discriminate; vm_compute; reflexivity.
  - reflexivity.
  - reflexivity.
  - reflexivity.
Qed.
(** C54, limit. At every call, and at destruction, the sandbox can end the host
    process. *)
Theorem call_can_abort_host debug spurious hd s i b :
  gone (cpc s) = false -> hpc s = HLoop i b ->
  exists s', hostile debug spurious hd s [] [] s' /\ hpc s' = HAborted.
Proof.
  destruct s as [v h hs c cs rq rs l]. cbn. intros G ->.
  set (v0 := Shared 0 0 0 1 1 false false true).
  assert (H0 : hostile debug spurious hd (Conf v (HLoop i b) hs c cs rq rs l) [] [] (Conf v0 (HLoop i b) hs c cs rq rs l)).
  { pose proof (hostile_move debug spurious hd (Conf v (HLoop i b) hs c cs rq rs l) [] [] _ v0 [] 0 (hostile_0 _ _ _ _) G) as X.
    unfold meddle in X. cbn in X. rewrite app_nil_r in X. exact X. }
  eexists. split.
  - eapply (hosts_run _ _ _ 6); [exact H0|]. clear H0. destruct debug, c; try discriminate; vm_compute; reflexivity.
  - reflexivity.
Qed.
Theorem destruction_can_abort_host debug spurious hd s :
  gone (cpc s) = false -> hpc s = HQuit1 ->
  exists s', hostile debug spurious hd s [] [] s' /\ hpc s' = HAborted.
Proof.
  destruct s as [v h hs c cs rq rs l]. cbn. intros G ->.
  set (v0 := Shared 0 0 0 1 1 false false true).
  assert (H0 : hostile debug spurious hd (Conf v HQuit1 hs c cs rq rs l) [] [] (Conf v0 HQuit1 hs c cs rq rs l)).
  { pose proof (hostile_move debug spurious hd (Conf v HQuit1 hs c cs rq rs l) [] [] _ v0 [] 0 (hostile_0 _ _ _ _) G) as X.
    unfold meddle in X. cbn in X. rewrite app_nil_r in X. exact X. }
  eexists. split.
  - eapply (hosts_run _ _ _ 4); [exact H0|]. clear H0. destruct debug, c; try discriminate; vm_compute; reflexivity.
  - reflexivity.
Qed.

(** C54, limit. During one call the sandbox can have any list of requests
    handled, and the call is still not over: nothing bounds how long it lasts. *)
Lemma one_more debug spurious hd s0 sent got i b d hs c cs rs l v k r :
  hostile debug spurious hd s0 sent got (Conf v (HWait i b d) hs c cs [] rs l) -> gone c = false ->
  hd (l ++ [EHandle k]) = HReturn r ->
  exists v' rs', hostile debug spurious hd s0 (sent ++ [k]) got (Conf v' (HWait i b d) hs c cs [] rs' (l ++ [EHandle k; EHandled k r])).
Proof.
  intros H G E. set (v0 := Shared (d + 1) 0 0 0 1 false false true).
  assert (L : (d <? d + 1) = true) by (apply Z.ltb_lt; lia).
  pose proof (hostile_move debug spurious hd s0 sent got _ v0 [k] 0 H G) as X. unfold meddle in X. cbn in X. rewrite app_nil_r in X.
  do 2 eexists. replace (l ++ [EHandle k; EHandled k r]) with ((l ++ [EHandle k]) ++ [EHandled k r]) by (rewrite <- app_assoc; auto).
  unfold v0 in X. clear v0 H.
  eapply (more_host _ _ _ _ _ _ _ true) in X; [|cbv -[Z.add Z.ltb app]; reflexivity].
  eapply (more_host _ _ _ _ _ _ _ true) in X; [|unfold host_step; cbn [hpc sh depth]; rewrite L; reflexivity]. cbn [sh hpc hstk cpc cstk reqs resps log] in X.
  eapply (more_host _ _ _ _ _ _ _ true) in X; [|cbv -[Z.add Z.ltb app]; reflexivity].
  eapply (more_host _ _ _ _ _ _ _ true) in X; [|unfold host_step; cbn [hpc log]; rewrite E; cbn [hstk sh cpc cstk reqs resps log]; reflexivity].
  eapply (more_host _ _ _ _ _ _ _ true) in X; [|cbv -[Z.add Z.sub Z.ltb app]; reflexivity].
  eapply (more_host _ _ _ _ _ _ _ true) in X; [|cbv -[Z.add Z.sub Z.ltb app]; reflexivity].
  eapply (more_host _ _ _ _ _ _ _ true) in X; [|cbv -[Z.add Z.sub Z.ltb app]; reflexivity].
  exact X.
Qed.
Theorem call_serves_anything debug spurious hd s i b d ks :
  gone (cpc s) = false -> hpc s = HWait i b d -> reqs s = [] -> (forall l, exists r, hd l = HReturn r) ->
  exists s' got, hostile debug spurious hd s ks got s' /\ hpc s' = HWait i b d /\ handled (log s') = handled (log s) ++ ks.
Proof.
  destruct s as [v h hs c cs rq rs l]. cbn. intros G -> -> E.
  assert (X : exists v' rs' l', hostile debug spurious hd (Conf v (HWait i b d) hs c cs [] rs l) ks [] (Conf v' (HWait i b d) hs c cs [] rs' l')
            /\ handled l' = handled l ++ ks).
  { induction ks as [|k ks IH] using rev_ind.
    - exists v, rs, l. split; [constructor|rewrite app_nil_r; auto].
    - destruct IH as (v1 & rs1 & l1 & H & L). destruct (E (l1 ++ [EHandle k])) as [r R].
      destruct (one_more _ _ _ _ _ _ _ _ _ _ _ _ _ _ _ _ _ H G R) as (v2 & rs2 & H2). exists v2, rs2, (l1 ++ [EHandle k; EHandled k r]). split; auto.
      unfold handled in *. rewrite flat_map_app, L, <- app_assoc. reflexivity. }
  destruct X as (v' & rs' & l' & H & L). exists (Conf v' (HWait i b d) hs c cs [] rs' l'), []. auto.
Qed.

(** The hypotheses are met: a hostile run in which a handler runs and calls back
    in, and that call is faked. *)
Definition some_host (l : list event) : hact :=
  match l with
  | [] => HCall 1 100
  | [_; _] => HCall 2 200
  | _ => HReturn 7
  end.
Example hostile_ex : exists got s, hostile false false some_host (fresh []) [5] got s
  /\ log s = [EReq 1 100; EHandle 5; EReq 2 200; EDone 2 200; EHandled 5 7].
Proof.
  pose proof (hostile_0 false false some_host (fresh [])) as X.
  eapply (hostile_move _ _ _ _ _ _ _ (Shared 0 0 0 0 0 false false true) [] 0) in X; [|reflexivity]. cbn in X.
  eapply (hosts_run _ _ _ 7) in X; [|vm_compute; reflexivity].
  eapply (hostile_move _ _ _ _ _ _ _ (Shared 1 0 0 0 1 false false true) [5] 0) in X; [|reflexivity]. cbn in X.
  eapply (hosts_run _ _ _ 10) in X; [|vm_compute; reflexivity].
  eapply (hostile_move _ _ _ _ _ _ _ (Shared 1 0 0 0 1 false false true) [] 0) in X; [|reflexivity]. cbn in X.
  eapply (hosts_run _ _ _ 3) in X; [|vm_compute; reflexivity].
  eexists. eexists. split; [exact X|reflexivity].
Qed.

Print Assumptions host_control_is_nested.
Print Assumptions host_code_waits_for_calls.
Print Assumptions handlers_follow_requests.
Print Assumptions replies_are_results.
Print Assumptions host_writes_documented.
Print Assumptions call_can_be_faked.
Print Assumptions call_can_abort_host.
Print Assumptions destruction_can_abort_host.
Print Assumptions call_serves_anything.
