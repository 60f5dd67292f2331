(** The invariant behind the protocol theorems: every reachable state of the two
    processes corresponds to a state of the sequential program. *)
From Coq Require Import List ZArith Bool Lia.
From Verif Require Import ProtoModel ProtoSpec.
Import ListNotations.
Open Scope Z_scope.

(** Stacks of the two processes as functions of the open calls. *)
Fixpoint hf (st : list open) : list hframe :=
  match st with
  | OHandler k :: OFn i b :: t => FSend i b (handlers_open t) k :: hf t
  | _ => []
  end.
Fixpoint cf (st : list open) : list cframe :=
  match st with
  | [] => []
  | OFn i b :: t => KRun (handlers_open t) i b :: cf t
  | OHandler k :: t => KCb k :: cf t
  end.
Inductive hst : list open -> Prop :=
| hst_nil : hst []
| hst_cons k i b t : hst t -> hst (OHandler k :: OFn i b :: t).

Lemma cf_not_loading st : loading (cf st) = false.
Proof. induction st as [|[i b|k] t IH]; simpl; auto. Qed.

Definition parked (n : Z) (p : cstate) : Prop := p = CChk n \/ p = CWait n.
Definition waiting (i b n : Z) (h : hstate) : Prop := h = HWait i b n \/ h = HPoll i b n.

Section Inv.
Variable debug spurious : bool.
Variable host_do : list event -> hact.
Variable child_do : list event -> cact.
Variable c0 : list open * control * list event.
Hypothesis nonnull : forall l i b, host_do l = HCall i b -> b <> 0.

Notation Q st c l := (seq host_do child_do c0 (st, c, l)).
Notation no := handlers_open.

Inductive Inv : conf -> Prop :=
(* the host has control *)
| I_user st fi p l : hst st -> parked (no st) p -> Q st InHost l ->
    Inv (Conf (Shared (no st) fi 0 0 0 false false true) HUser (hf st) p (cf st) [] [] l)
| I_req st fi p l i b h : hst st -> parked (no st) p -> Q st (Requested i b) l -> b <> 0 ->
    h = HLoop i b \/ h = HSnap i b \/ h = HIdx i b (no st) ->
    Inv (Conf (Shared (no st) fi 0 0 0 false false true) h (hf st) p (cf st) [] [] l)
| I_buf st p l i b : hst st -> parked (no st) p -> Q st (Requested i b) l -> b <> 0 ->
    Inv (Conf (Shared (no st) i 0 0 0 false false true) (HBuf i b (no st)) (hf st) p (cf st) [] [] l)
| I_exec st p l i b : hst st -> parked (no st) p -> Q st (Requested i b) l -> b <> 0 ->
    Inv (Conf (Shared (no st) i b 0 0 false false true) (HExec i b (no st)) (hf st) p (cf st) [] [] l)
| I_wake st p l i b : hst st -> parked (no st) p -> Q st (Requested i b) l -> b <> 0 ->
    Inv (Conf (Shared (no st) i b 0 0 true false true) (HWake i b (no st)) (hf st) p (cf st) [] [] l)
(* the token travels to the sandbox *)
| I_sent st p l i b h : hst st -> parked (no st) p -> Q st (Requested i b) l -> b <> 0 ->
    waiting i b (no st) h ->
    Inv (Conf (Shared (no st) i b 1 0 true false true) h (hf st) p (cf st) [] [] l)
| I_pick st p l i b h : hst st -> Q st (Requested i b) l -> b <> 0 -> waiting i b (no st) h ->
    p = CInv (no st) \/ p = CIdx (no st) \/ p = CBuf (no st) i \/ p = CNull (no st) i b ->
    Inv (Conf (Shared (no st) i b 0 0 true false true) h (hf st) p (cf st) [] [] l)
(* the sandbox has control *)
| I_child st fi l i b h : hst st -> Q (OFn i b :: st) InSandbox l -> waiting i b (no st) h ->
    Inv (Conf (Shared (no st) fi 0 0 0 true false true) h (hf st) CUser (cf (OFn i b :: st)) [] [] l)
| I_inc st fi l i b h k : hst st -> Q (OFn i b :: st) (Asked k) l -> waiting i b (no st) h ->
    Inv (Conf (Shared (no st) fi 0 0 0 true false true) h (hf st) (CInc k) (cf (OFn i b :: st)) [k] [] l)
| I_cexec st fi l i b h k : hst st -> Q (OFn i b :: st) (Asked k) l -> waiting i b (no st) h ->
    Inv (Conf (Shared (no st + 1) fi 0 0 0 true false true) h (hf st) (CExec k (no st + 1))
           (cf (OFn i b :: st)) [k] [] l)
| I_cwake st fi l i b h k : hst st -> Q (OFn i b :: st) (Asked k) l -> waiting i b (no st) h ->
    Inv (Conf (Shared (no st + 1) fi 0 0 0 false false true) h (hf st) (CWake k (no st + 1))
           (cf (OFn i b :: st)) [k] [] l)
(* a callback request travels to the host *)
| I_asked st fi l i b h k p : hst st -> Q (OFn i b :: st) (Asked k) l -> waiting i b (no st) h ->
    parked (no st + 1) p ->
    Inv (Conf (Shared (no st + 1) fi 0 0 1 false false true) h (hf st) p
           (cf (OHandler k :: OFn i b :: st)) [k] [] l)
| I_handle st fi l i b h k p : hst st -> Q (OFn i b :: st) (Asked k) l ->
    h = HCheck i b (no st) \/ h = HHandle i b (no st) -> parked (no st + 1) p ->
    Inv (Conf (Shared (no st + 1) fi 0 0 0 false false true) h (hf st) p
           (cf (OHandler k :: OFn i b :: st)) [k] [] l)
(* the answer travels back *)
| I_dec st fi l i b k r p : hst st -> Q (OFn i b :: st) (Answered k r) l -> parked (no st + 1) p ->
    Inv (Conf (Shared (no st + 1) fi 0 0 0 false false true) (HDec i b (no st)) (hf st) p
           (cf (OHandler k :: OFn i b :: st)) [] [r] l)
| I_exec2 st fi l i b k r p : hst st -> Q (OFn i b :: st) (Answered k r) l -> parked (no st + 1) p ->
    Inv (Conf (Shared (no st) fi 0 0 0 false false true) (HExec2 i b (no st)) (hf st) p
           (cf (OHandler k :: OFn i b :: st)) [] [r] l)
| I_wake2 st fi l i b k r p : hst st -> Q (OFn i b :: st) (Answered k r) l -> parked (no st + 1) p ->
    Inv (Conf (Shared (no st) fi 0 0 0 true false true) (HWake2 i b (no st)) (hf st) p
           (cf (OHandler k :: OFn i b :: st)) [] [r] l)
| I_answered st fi l i b k r p h : hst st -> Q (OFn i b :: st) (Answered k r) l ->
    waiting i b (no st) h -> parked (no st + 1) p ->
    Inv (Conf (Shared (no st) fi 0 1 0 true false true) h (hf st) p
           (cf (OHandler k :: OFn i b :: st)) [] [r] l)
| I_resume st fi l i b k r p h : hst st -> Q (OFn i b :: st) (Answered k r) l ->
    waiting i b (no st) h ->
    p = CInv (no st + 1) \/ p = CIdx (no st + 1) \/ p = CBuf (no st + 1) fi
    \/ p = CNull (no st + 1) fi 0 \/ p = CDepth (no st + 1) \/ p = CRecv ->
    Inv (Conf (Shared (no st) fi 0 0 0 true false true) h (hf st) p
           (cf (OHandler k :: OFn i b :: st)) [] [r] l)
(* the function has returned *)
| I_ret st fi l i b h p : hst st -> Q st (Returned i b) l -> waiting i b (no st) h ->
    p = CDepth (no st) \/ p = CExec2 (no st) ->
    Inv (Conf (Shared (no st) fi 0 0 0 true false true) h (hf st) p (cf st) [] [] l)
| I_cwake2 st fi l i b h : hst st -> Q st (Returned i b) l -> waiting i b (no st) h ->
    Inv (Conf (Shared (no st) fi 0 0 0 false false true) h (hf st) (CWake2 (no st)) (cf st) [] [] l)
| I_back st fi l i b h p : hst st -> Q st (Returned i b) l -> waiting i b (no st) h ->
    parked (no st) p ->
    Inv (Conf (Shared (no st) fi 0 0 1 false false true) h (hf st) p (cf st) [] [] l)
| I_done st fi l i b p : hst st -> Q st (Returned i b) l -> parked (no st) p ->
    Inv (Conf (Shared (no st) fi 0 0 0 false false true) (HCheck i b (no st)) (hf st) p (cf st) [] [] l)
(* shutdown *)
| I_quit1 fi l p h : Q [] InHost l -> parked 0 p -> h = HQuit1 \/ h = HQuit2 ->
    Inv (Conf (Shared 0 fi 0 0 0 false false true) h [] p [] [] [] (l ++ [EQuit]))
| I_quit3 fi l p : Q [] InHost l -> parked 0 p \/ p = CExit ->
    Inv (Conf (Shared 0 fi 0 0 0 false true true) HQuit3 [] p [] [] [] (l ++ [EQuit]))
| I_quit4 fi l p : Q [] InHost l -> parked 0 p \/ p = CExit ->
    Inv (Conf (Shared 0 fi 0 0 0 true true true) HQuit4 [] p [] [] [] (l ++ [EQuit]))
| I_quit5 fi l p h : Q [] InHost l -> parked 0 p \/ p = CExit -> h = HQuit5 \/ h = HEnd /\ p = CExit ->
    Inv (Conf (Shared 0 fi 0 1 0 true true true) h [] p [] [] [] (l ++ [EQuit]))
| I_quit6 fi l p : Q [] InHost l ->
    p = CInv 0 \/ p = CIdx 0 \/ p = CBuf 0 fi \/ p = CNull 0 fi 0 \/ p = CDepth 0 \/ p = CExec2 0 ->
    Inv (Conf (Shared 0 fi 0 0 0 true true true) HQuit5 [] p [] [] [] (l ++ [EQuit]))
| I_quit7 fi l : Q [] InHost l ->
    Inv (Conf (Shared 0 fi 0 0 0 false true true) HQuit5 [] (CWake2 0) [] [] [] (l ++ [EQuit]))
| I_quit8 fi l p h : Q [] InHost l -> p = CChk 0 \/ p = CExit -> h = HQuit5 \/ h = HEnd /\ p = CExit ->
    Inv (Conf (Shared 0 fi 0 0 1 false true true) h [] p [] [] [] (l ++ [EQuit])).

Lemma ltb_succ n : (n <? n + 1) = true.
Proof. apply Z.ltb_lt; lia. Qed.
Lemma eqb_succ n : (n =? n + 1) = false.
Proof. apply Z.eqb_neq; lia. Qed.

Ltac cases := repeat match goal with
  | [ H : parked _ _ |- _ ] => destruct H
  | [ H : waiting _ _ _ _ |- _ ] => destruct H
  | [ H : _ \/ _ |- _ ] => destruct H
  | [ H : _ /\ _ |- _ ] => destruct H
  end; subst.

Ltac norm H :=
  cbn [host_step child_step sh hpc hstk cpc cstk reqs resps log depth findex mbuf cflag pflag executing
       should_exit loaded set_depth set_findex set_mbuf set_cflag set_pflag set_executing
       set_should_exit set_loaded wake wait Z.ltb Z.eqb Z.compare gone andb orb negb cf hf loading existsb] in H;
  rewrite ?ltb_succ, ?eqb_succ, ?Z.ltb_irrefl, ?Z.eqb_refl, ?cf_not_loading, ?andb_false_r, ?orb_false_r in H;
  cbn [andb orb negb] in H.

Ltac finish := solve [unfold parked, waiting in *; auto 12].

Lemma q_app st c l st' c' e : Q st c l -> seq_step host_do child_do (st, c, l) (st', c', l ++ [e]) ->
  Q st' c' (l ++ [e]).
Proof. intros H S. eapply seq_next; eauto. Qed.

Lemma Inv_user st fi p l : hst st -> parked (no st) p -> Q st InHost l -> forall fail s',
  host_step debug spurious host_do fail
    (Conf (Shared (no st) fi 0 0 0 false false true) HUser (hf st) p (cf st) [] [] l) = Some s' -> Inv s'.
Proof.
  intros Hs Hp HQ fail s' H. norm H.
  destruct (host_do l) as [i b|r] eqn:D.
  - injection H as <-. eapply I_req; [eassumption|eassumption| |eapply nonnull; eassumption|finish].
    eapply q_app; [eassumption|constructor; assumption].
  - inversion Hs; subst; cbn [hf] in H; injection H as <-.
    + eapply I_quit1; [eassumption|eassumption|finish].
    + eapply (I_dec t fi (l ++ [EHandled k r]) i b k r p); [assumption| |assumption].
      eapply q_app; [eassumption|constructor; assumption].
Qed.

Lemma Inv_host fail s s' : Inv s -> host_step debug spurious host_do fail s = Some s' -> Inv s'.
Proof.
  intros HI H. destruct HI; [eapply Inv_user; eassumption|..]; cases; norm H; try discriminate.
  all: try (injection H as <-).
  all: try (destruct fail; [|discriminate]; injection H as <-).
  all: try (solve [econstructor; try eassumption; finish]).
  - eapply (I_user (OHandler k :: OFn i b :: st)); [constructor; assumption|finish|].
    eapply q_app; [eassumption|constructor].
  - eapply (I_user (OHandler k :: OFn i b :: st)); [constructor; assumption|finish|].
    eapply q_app; [eassumption|constructor].
  - replace (no st + 1 - 1) with (no st) by lia. eapply (I_exec2 st fi l i b k r); [assumption|assumption|finish].
  - replace (no st + 1 - 1) with (no st) by lia. eapply (I_exec2 st fi l i b k r); [assumption|assumption|finish].
  - eapply I_user; [assumption|finish|]. eapply q_app; [eassumption|constructor].
  - eapply I_user; [assumption|finish|]. eapply q_app; [eassumption|constructor].
Qed.

Lemma Inv_child fail s s' : Inv s -> child_step debug child_do fail s = Some s' -> Inv s'.
Proof.
  intros HI H. destruct HI; cases; norm H; try discriminate.
  all: try (injection H as <-).
  all: try (destruct fail; [|discriminate]; injection H as <-).
  all: try (solve [econstructor; try eassumption; finish]).
  - destruct (Z.eqb_spec b 0); [contradiction|]. injection H as <-.
    eapply I_child; [assumption| |finish]. eapply q_app; [eassumption|constructor].
  - destruct (Z.eqb_spec b 0); [contradiction|]. injection H as <-.
    eapply I_child; [assumption| |finish]. eapply q_app; [eassumption|constructor].
  - destruct (child_do l) as [k|] eqn:D; injection H as <-.
    + eapply (I_inc st); [assumption| |finish]. eapply q_app; [eassumption|constructor; assumption].
    + eapply (I_ret st); [assumption| |finish|finish]. eapply q_app; [eassumption|constructor; assumption].
  - destruct (child_do l) as [k|] eqn:D; injection H as <-.
    + eapply (I_inc st); [assumption| |finish]. eapply q_app; [eassumption|constructor; assumption].
    + eapply (I_ret st); [assumption| |finish|finish]. eapply q_app; [eassumption|constructor; assumption].
  - eapply (I_child st); [assumption| |finish]. eapply q_app; [eassumption|constructor].
  - eapply (I_child st); [assumption| |finish]. eapply q_app; [eassumption|constructor].
Qed.

Lemma Inv_step s s' : Inv s -> step debug spurious host_do child_do s s' -> Inv s'.
Proof.
  intros HI H. destruct H as [fail a b H|fail a b H];
    [exact (Inv_host _ _ _ HI H)|exact (Inv_child _ _ _ HI H)].
Qed.

Lemma Inv_reach s s' : Inv s -> reach debug spurious host_do child_do s s' -> Inv s'.
Proof. intros HI R. induction R; auto. eapply Inv_step; eauto. Qed.
End Inv.

(** ** The sequential program's logs are properly nested *)

Scheme calls_ind2 := Minimality for calls Sort Prop
  with callbacks_ind2 := Minimality for callbacks Sort Prop.

Lemma calls_app a b : calls a -> calls b -> calls (a ++ b).
Proof.
  intros H Hb. induction H as [|i f cs rest Hc Hr IH]; simpl; auto.
  rewrite <- app_assoc. simpl. constructor; auto.
Qed.
Lemma callbacks_app a b : callbacks a -> callbacks b -> callbacks (a ++ b).
Proof.
  intros H Hb. induction H as [|k r cs rest Hc Hr IH]; simpl; auto.
  rewrite <- app_assoc. simpl. constructor; auto.
Qed.
Lemma calls_snoc l i b cs : calls l -> callbacks cs ->
  calls (l ++ EReq i b :: EInvoke i b :: cs ++ [EReturn i b; EDone i b]).
Proof. intros H Hc. apply calls_app; auto. constructor; auto. constructor. Qed.
Lemma callbacks_snoc l k r cs : callbacks l -> calls cs ->
  callbacks (l ++ ECallback k :: EHandle k :: cs ++ [EHandled k r; EResume k r]).
Proof. intros H Hc. apply callbacks_app; auto. constructor; auto. constructor. Qed.

(** The log of a state with open calls: complete parts separated by the openings. *)
Inductive shape : list open -> list event -> Prop :=
| sh_top l : calls l -> shape [] l
| sh_fn i b st l cs : shape st l -> callbacks cs -> shape (OFn i b :: st) (l ++ EReq i b :: EInvoke i b :: cs)
| sh_handler k st l cs : shape st l -> calls cs -> shape (OHandler k :: st) (l ++ ECallback k :: EHandle k :: cs).

Lemma shape_top st l : shape st l -> st = [] -> calls l.
Proof. destruct 1; congruence. Qed.

Lemma shape_calls st l cs : shape st l -> hst st -> calls cs -> shape st (l ++ cs).
Proof.
  intros H Hh Hc. inversion Hh; subst.
  - constructor. apply calls_app; auto. eapply shape_top; eauto.
  - inversion H; subst. rewrite <- app_assoc. simpl. constructor; auto. apply calls_app; auto.
Qed.
Lemma shape_callbacks i b st l cs : shape (OFn i b :: st) l -> callbacks cs -> shape (OFn i b :: st) (l ++ cs).
Proof.
  intros H Hc. inversion H; subst. rewrite <- app_assoc. simpl. constructor; auto. apply callbacks_app; auto.
Qed.

(** What the log looks like at each point of control. *)
Definition good (c : list open * control * list event) : Prop :=
  let '(st, ct, l) := c in
  match ct with
  | InHost => hst st /\ shape st l
  | Requested i b => hst st /\ exists l0, l = l0 ++ [EReq i b] /\ shape st l0
  | InSandbox => (exists i b t, st = OFn i b :: t /\ hst t) /\ shape st l
  | Asked k => (exists i b t, st = OFn i b :: t /\ hst t) /\ exists l0, l = l0 ++ [ECallback k] /\ shape st l0
  | Answered k r => (exists i b t, st = OFn i b :: t /\ hst t) /\
      exists l0 cs, l = l0 ++ ECallback k :: EHandle k :: cs ++ [EHandled k r] /\ calls cs /\ shape st l0
  | Returned i b => hst st /\
      exists l0 cs, l = l0 ++ EReq i b :: EInvoke i b :: cs ++ [EReturn i b] /\ callbacks cs /\ shape st l0
  end.

Lemma good_step hd cd c c' : good c -> seq_step hd cd c c' -> good c'.
Proof.
  intros G H. destruct H; cbn [good] in *.
  - destruct G as [A B]. split; auto. exists l; auto.
  - destruct G as [A [l0 [-> B]]]. split; eauto. rewrite <- app_assoc. simpl.
    constructor; auto. constructor.
  - destruct G as [A B]. split; auto. exists l; auto.
  - destruct G as [[i [b [t [-> A]]]] [l0 [-> B]]]. split; [constructor; auto|].
    rewrite <- app_assoc. simpl. constructor; auto. constructor.
  - destruct G as [A B]. inversion A; subst. split; eauto.
    inversion B; subst. exists l0, cs. split; auto. rewrite <- app_assoc. reflexivity.
  - destruct G as [[i [b [t [-> A]]]] [l0 [cs [-> [B C]]]]]. split; eauto.
    replace ((l0 ++ ECallback k :: EHandle k :: cs ++ [EHandled k r]) ++ [EResume k r])
      with (l0 ++ ECallback k :: EHandle k :: cs ++ [EHandled k r; EResume k r])
      by (rewrite <- !app_assoc; simpl; rewrite <- app_assoc; reflexivity).
    apply shape_callbacks; auto. constructor; auto. constructor.
  - destruct G as [[i' [b' [t [E A]]]] B]. injection E as -> -> ->. split; auto.
    inversion B; subst. exists l0, cs. split; auto. rewrite <- app_assoc. reflexivity.
  - destruct G as [A [l0 [cs [-> [B C]]]]]. split; auto.
    replace ((l0 ++ EReq i b :: EInvoke i b :: cs ++ [EReturn i b]) ++ [EDone i b])
      with (l0 ++ EReq i b :: EInvoke i b :: cs ++ [EReturn i b; EDone i b])
      by (rewrite <- !app_assoc; simpl; rewrite <- app_assoc; reflexivity).
    apply shape_calls; auto. constructor; auto. constructor.
Qed.

Lemma good_seq hd cd c0 c : seq hd cd c0 c -> good c0 -> good c.
Proof. intros H G. induction H; auto. eapply good_step; eauto. Qed.

Lemma good_start : good ([], InHost, []).
Proof. split; constructor. constructor. Qed.

Lemma seq_trans hd cd a b c : seq hd cd a b -> seq hd cd b c -> seq hd cd a c.
Proof. intros H1 H2. induction H2; auto. eapply seq_next; eauto. Qed.
