(** The invariant behind the theorems on exceptions: that of ProtoProof, with
    abandoned calls at the bottom of the sandbox's stack. *)
From Coq Require Import List ZArith Bool Lia.
From Verif Require Import ProtoModel ProtoSpec ProtoProof ProtoLoad ProtoProgress ProtoProps ThrowModel ThrowSpec.
Import ListNotations.
Open Scope Z_scope.

(** Open calls and handlers, and pairs of both that were abandoned. *)
Inductive slot := AFn (i b : Z) | AHandler (k : Z) | AGone (k i b : Z).
Fixpoint level (st : list slot) : Z :=
  match st with
  | [] => 0
  | AFn _ _ :: t => level t
  | AHandler _ :: t => level t + 1
  | AGone _ _ _ :: t => level t + 1
  end.
Fixpoint hf (st : list slot) : list hframe :=
  match st with
  | AHandler k :: AFn i b :: t => FSend i b (level t) k :: hf t
  | _ => []
  end.
Fixpoint cf (st : list slot) : list cframe :=
  match st with
  | [] => []
  | AFn i b :: t => KRun (level t) i b :: cf t
  | AHandler k :: t => KCb k :: cf t
  | AGone k i b :: t => KCb k :: KRun (level t) i b :: cf t
  end.
(** The calls that are really open. *)
Fixpoint er (st : list slot) : list open :=
  match st with
  | [] => []
  | AFn i b :: t => OFn i b :: er t
  | AHandler k :: t => OHandler k :: er t
  | AGone _ _ _ :: t => er t
  end.
Fixpoint give_up (st : list slot) : list slot :=
  match st with
  | AHandler k :: AFn i b :: t => AGone k i b :: give_up t
  | _ => st
  end.
Inductive dead : list slot -> Prop :=
| dead_nil : dead []
| dead_cons k i b t : dead t -> dead (AGone k i b :: t).
Inductive hst : list slot -> Prop :=
| hst_dead t : dead t -> hst t
| hst_cons k i b t : hst t -> hst (AHandler k :: AFn i b :: t).

Lemma cf_not_loading st : loading (cf st) = false.
Proof. induction st as [|[i b|k|k i b] t IH]; simpl; auto. Qed.
Lemma dead_er t : dead t -> er t = [].
Proof. induction 1; auto. Qed.
Lemma dead_hf t : dead t -> hf t = [].
Proof. destruct 1; auto. Qed.
Lemma er_dead t : hst t -> er t = [] -> dead t.
Proof. destruct 1; auto; discriminate. Qed.
Lemma give_up_same st : hst st -> dead (give_up st) /\ level (give_up st) = level st /\ cf (give_up st) = cf st.
Proof.
  induction 1 as [t D|k i b t H (A & B & C)].
  - destruct D; cbn; auto using dead_nil, dead_cons.
  - cbn [give_up level cf]. rewrite B, C. auto using dead_cons.
Qed.

Definition parked (n : Z) (p : cstate) : Prop := p = CChk n \/ p = CWait n.
Definition waiting (i b n : Z) (h : hstate) : Prop := h = HWait i b n \/ h = HPoll i b n.

(** Handlers started and not returned. *)
Definition balance (l : list event) : Z := Z.of_nat (started l) - Z.of_nat (answered l).
Lemma balance_app l m : balance (l ++ m) = balance l + balance m.
Proof. unfold balance, started, answered. rewrite !filter_app, !app_length. lia. Qed.
Lemma balance_load done : balance (load_events done) = 0.
Proof.
  induction done as [|[k r] t IH]; [reflexivity|]. unfold load_events in *. cbn [flat_map].
  rewrite balance_app, IH. reflexivity.
Qed.

Section Inv.
Variable debug spurious : bool.
Variable host_do : list event -> xact.
Variable child_do : list event -> cact.
Variable c0 : list open * control * list event.
Hypothesis nonnull : forall l i b, host_do l = XDo (HCall i b) -> b <> 0.
Hypothesis nocatch : forall l, host_do l <> XThrow true.

Definition Q (st : list slot) (c : control) (l : list event) : Prop :=
  xseq host_do child_do c0 (er st, c, l) /\ level st = balance l.
Notation no := level.

Inductive XInv : conf -> Prop :=
(* the host has control *)
| I_user st fi p l : hst st -> parked (no st) p -> Q st InHost l ->
    XInv (Conf (Shared (no st) fi 0 0 0 false false true) HUser (hf st) p (cf st) [] [] l)
| I_req st fi p l i b h : hst st -> parked (no st) p -> Q st (Requested i b) l -> b <> 0 ->
    h = HLoop i b \/ h = HSnap i b \/ h = HIdx i b (no st) ->
    XInv (Conf (Shared (no st) fi 0 0 0 false false true) h (hf st) p (cf st) [] [] l)
| I_buf st p l i b : hst st -> parked (no st) p -> Q st (Requested i b) l -> b <> 0 ->
    XInv (Conf (Shared (no st) i 0 0 0 false false true) (HBuf i b (no st)) (hf st) p (cf st) [] [] l)
| I_exec st p l i b : hst st -> parked (no st) p -> Q st (Requested i b) l -> b <> 0 ->
    XInv (Conf (Shared (no st) i b 0 0 false false true) (HExec i b (no st)) (hf st) p (cf st) [] [] l)
| I_wake st p l i b : hst st -> parked (no st) p -> Q st (Requested i b) l -> b <> 0 ->
    XInv (Conf (Shared (no st) i b 0 0 true false true) (HWake i b (no st)) (hf st) p (cf st) [] [] l)
(* the token travels to the sandbox *)
| I_sent st p l i b h : hst st -> parked (no st) p -> Q st (Requested i b) l -> b <> 0 ->
    waiting i b (no st) h ->
    XInv (Conf (Shared (no st) i b 1 0 true false true) h (hf st) p (cf st) [] [] l)
| I_pick st p l i b h : hst st -> Q st (Requested i b) l -> b <> 0 -> waiting i b (no st) h ->
    p = CInv (no st) \/ p = CIdx (no st) \/ p = CBuf (no st) i \/ p = CNull (no st) i b ->
    XInv (Conf (Shared (no st) i b 0 0 true false true) h (hf st) p (cf st) [] [] l)
(* the sandbox has control *)
| I_child st fi l i b h : hst st -> Q (AFn i b :: st) InSandbox l -> waiting i b (no st) h ->
    XInv (Conf (Shared (no st) fi 0 0 0 true false true) h (hf st) CUser (cf (AFn i b :: st)) [] [] l)
| I_inc st fi l i b h k : hst st -> Q (AFn i b :: st) (Asked k) l -> waiting i b (no st) h ->
    XInv (Conf (Shared (no st) fi 0 0 0 true false true) h (hf st) (CInc k) (cf (AFn i b :: st)) [k] [] l)
| I_cexec st fi l i b h k : hst st -> Q (AFn i b :: st) (Asked k) l -> waiting i b (no st) h ->
    XInv (Conf (Shared (no st + 1) fi 0 0 0 true false true) h (hf st) (CExec k (no st + 1))
           (cf (AFn i b :: st)) [k] [] l)
| I_cwake st fi l i b h k : hst st -> Q (AFn i b :: st) (Asked k) l -> waiting i b (no st) h ->
    XInv (Conf (Shared (no st + 1) fi 0 0 0 false false true) h (hf st) (CWake k (no st + 1))
           (cf (AFn i b :: st)) [k] [] l)
(* a callback request travels to the host *)
| I_asked st fi l i b h k p : hst st -> Q (AFn i b :: st) (Asked k) l -> waiting i b (no st) h ->
    parked (no st + 1) p ->
    XInv (Conf (Shared (no st + 1) fi 0 0 1 false false true) h (hf st) p
           (cf (AHandler k :: AFn i b :: st)) [k] [] l)
| I_handle st fi l i b h k p : hst st -> Q (AFn i b :: st) (Asked k) l ->
    h = HCheck i b (no st) \/ h = HHandle i b (no st) -> parked (no st + 1) p ->
    XInv (Conf (Shared (no st + 1) fi 0 0 0 false false true) h (hf st) p
           (cf (AHandler k :: AFn i b :: st)) [k] [] l)
(* the answer travels back *)
| I_dec st fi l i b k r p : hst st -> Q (AFn i b :: st) (Answered k r) l -> parked (no st + 1) p ->
    XInv (Conf (Shared (no st + 1) fi 0 0 0 false false true) (HDec i b (no st)) (hf st) p
           (cf (AHandler k :: AFn i b :: st)) [] [r] l)
| I_exec2 st fi l i b k r p : hst st -> Q (AFn i b :: st) (Answered k r) l -> parked (no st + 1) p ->
    XInv (Conf (Shared (no st) fi 0 0 0 false false true) (HExec2 i b (no st)) (hf st) p
           (cf (AHandler k :: AFn i b :: st)) [] [r] l)
| I_wake2 st fi l i b k r p : hst st -> Q (AFn i b :: st) (Answered k r) l -> parked (no st + 1) p ->
    XInv (Conf (Shared (no st) fi 0 0 0 true false true) (HWake2 i b (no st)) (hf st) p
           (cf (AHandler k :: AFn i b :: st)) [] [r] l)
| I_answered st fi l i b k r p h : hst st -> Q (AFn i b :: st) (Answered k r) l ->
    waiting i b (no st) h -> parked (no st + 1) p ->
    XInv (Conf (Shared (no st) fi 0 1 0 true false true) h (hf st) p
           (cf (AHandler k :: AFn i b :: st)) [] [r] l)
| I_resume st fi l i b k r p h : hst st -> Q (AFn i b :: st) (Answered k r) l ->
    waiting i b (no st) h ->
    p = CInv (no st + 1) \/ p = CIdx (no st + 1) \/ p = CBuf (no st + 1) fi
    \/ p = CNull (no st + 1) fi 0 \/ p = CDepth (no st + 1) \/ p = CRecv ->
    XInv (Conf (Shared (no st) fi 0 0 0 true false true) h (hf st) p
           (cf (AHandler k :: AFn i b :: st)) [] [r] l)
(* the function has returned *)
| I_ret st fi l i b h p : hst st -> Q st (Returned i b) l -> waiting i b (no st) h ->
    p = CDepth (no st) \/ p = CExec2 (no st) ->
    XInv (Conf (Shared (no st) fi 0 0 0 true false true) h (hf st) p (cf st) [] [] l)
| I_cwake2 st fi l i b h : hst st -> Q st (Returned i b) l -> waiting i b (no st) h ->
    XInv (Conf (Shared (no st) fi 0 0 0 false false true) h (hf st) (CWake2 (no st)) (cf st) [] [] l)
| I_back st fi l i b h p : hst st -> Q st (Returned i b) l -> waiting i b (no st) h ->
    parked (no st) p ->
    XInv (Conf (Shared (no st) fi 0 0 1 false false true) h (hf st) p (cf st) [] [] l)
| I_done st fi l i b p : hst st -> Q st (Returned i b) l -> parked (no st) p ->
    XInv (Conf (Shared (no st) fi 0 0 0 false false true) (HCheck i b (no st)) (hf st) p (cf st) [] [] l)
(* shutdown *)
| I_quit1 st fi l p h : hst st -> er st = [] -> Q st InHost l -> parked (no st) p -> h = HQuit1 \/ h = HQuit2 ->
    XInv (Conf (Shared (no st) fi 0 0 0 false false true) h [] p (cf st) [] [] (l ++ [EQuit]))
| I_quit3 st fi l p : hst st -> er st = [] -> Q st InHost l -> parked (no st) p \/ p = CExit ->
    XInv (Conf (Shared (no st) fi 0 0 0 false true true) HQuit3 [] p (cf st) [] [] (l ++ [EQuit]))
| I_quit4 st fi l p : hst st -> er st = [] -> Q st InHost l -> parked (no st) p \/ p = CExit ->
    XInv (Conf (Shared (no st) fi 0 0 0 true true true) HQuit4 [] p (cf st) [] [] (l ++ [EQuit]))
| I_quit5 st fi l p h : hst st -> er st = [] -> Q st InHost l -> parked (no st) p \/ p = CExit -> h = HQuit5 \/ h = HEnd /\ p = CExit ->
    XInv (Conf (Shared (no st) fi 0 1 0 true true true) h [] p (cf st) [] [] (l ++ [EQuit]))
| I_quit6 st fi l p : hst st -> er st = [] -> Q st InHost l ->
    p = CInv (no st) \/ p = CIdx (no st) \/ p = CBuf (no st) fi \/ p = CNull (no st) fi 0 \/ p = CDepth (no st) \/ p = CExec2 (no st) ->
    XInv (Conf (Shared (no st) fi 0 0 0 true true true) HQuit5 [] p (cf st) [] [] (l ++ [EQuit]))
| I_quit7 st fi l : hst st -> er st = [] -> Q st InHost l ->
    XInv (Conf (Shared (no st) fi 0 0 0 false true true) HQuit5 [] (CWake2 (no st)) (cf st) [] [] (l ++ [EQuit]))
| I_quit8 st fi l p h : hst st -> er st = [] -> Q st InHost l -> p = CChk (no st) \/ p = CExit -> h = HQuit5 \/ h = HEnd /\ p = CExit ->
    XInv (Conf (Shared (no st) fi 0 0 1 false true true) h [] p (cf st) [] [] (l ++ [EQuit])).

Lemma ltb_succ n : (n <? n + 1) = true.
Proof. apply Z.ltb_lt; lia. Qed.
Lemma eqb_succ n : (n =? n + 1) = false.
Proof. apply Z.eqb_neq; lia. Qed.

Ltac cases := repeat match goal with
  | [ H : parked _ _ |- _ ] => destruct H
  | [ H : waiting _ _ _ _ |- _ ] => destruct H
  | [ H : _ \/ _ |- _ ] => destruct H
  | [ H : _ /\ _ |- _ ] => destruct H
  end; subst.

Ltac norm H :=
  cbn [host_step child_step sh hpc hstk cpc cstk reqs resps log depth findex mbuf cflag pflag executing
       should_exit loaded set_depth set_findex set_mbuf set_cflag set_pflag set_executing
       set_should_exit set_loaded wake wait Z.ltb Z.eqb Z.compare gone andb orb negb cf hf loading existsb] in H;
  rewrite ?ltb_succ, ?eqb_succ, ?Z.ltb_irrefl, ?Z.eqb_refl, ?cf_not_loading, ?andb_false_r, ?orb_false_r in H;
  cbn [andb orb negb] in H.

Ltac finish := solve [unfold parked, waiting in *; auto 12].

Lemma q_app st c l st' c' e : Q st c l -> (c = InHost -> exists a, host_do l = XDo a) ->
  seq_step (plain host_do) child_do (er st, c, l) (er st', c', l ++ [e]) ->
  level st' = level st + balance [e] -> Q st' c' (l ++ [e]).
Proof.
  intros [H B] D S E. split; [eapply xseq_next; [eassumption|]; apply x_plain; assumption|].
  rewrite balance_app. lia.
Qed.
Ltac lev := cbn; lia.

Lemma XInv_user st fi p l : hst st -> parked (no st) p -> Q st InHost l -> forall fail s',
  xhost_step debug spurious host_do fail
    (Conf (Shared (no st) fi 0 0 0 false false true) HUser (hf st) p (cf st) [] [] l) = Some s' -> XInv s'.
Proof.
  intros Hs Hp HQ fail s' H. unfold xhost_step in H. cbn [hpc log hstk] in H.
  destruct (host_do l) as [[i b|r]|c] eqn:D.
  - norm H. unfold plain in H. rewrite D in H. injection H as <-.
    eapply I_req; [eassumption|eassumption| |eapply nonnull; eassumption|finish].
    eapply q_app; [eassumption|eauto| |lev]. constructor. unfold plain. rewrite D. reflexivity.
  - assert (P : plain host_do l = HReturn r) by (unfold plain; rewrite D; reflexivity).
    norm H. rewrite P in H. inversion Hs as [t Dt|k i b t Ht]; subst.
    + rewrite (dead_hf _ Dt) in H. injection H as <-. eapply I_quit1; eauto using dead_er.
    + cbn [hf] in H. injection H as <-.
      eapply (I_dec t fi (l ++ [EHandled k r]) i b k r p); [assumption| |assumption].
      eapply q_app; [eassumption|eauto| |lev]. cbn [er]. constructor. assumption.
  - destruct c; [destruct (nocatch _ D)|].
    assert (P : plain host_do l = HReturn 0) by (unfold plain; rewrite D; reflexivity).
    inversion Hs as [t Dt|k i b t Ht]; subst.
    + rewrite (dead_hf _ Dt) in H. norm H. rewrite P in H. injection H as <-. eapply I_quit1; eauto using dead_er.
    + cbn [hf sh cpc cstk reqs resps] in H. injection H as <-. destruct (give_up_same _ Hs) as (G1 & G2 & G3).
      pose proof (I_user (give_up (AHandler k :: AFn i b :: t)) fi p (l ++ [EThrow])) as X.
      rewrite G2, G3, (dead_hf _ G1) in X. apply X; [constructor; exact G1|exact Hp|]. unfold Q. rewrite G2, (dead_er _ G1).
      destruct HQ as [HQ HB]. split; [eapply xseq_next; [exact HQ|]; apply x_throw; assumption|].
      rewrite balance_app, <- HB. lev.
Qed.

Lemma XInv_host fail s s'   : XInv s -> xhost_step debug spurious host_do fail s = Some s' -> XInv s'.
Proof.
  intros HI H. destruct HI; [eapply XInv_user; eassumption|..]; cases; unfold xhost_step in H; norm H; try discriminate.
  all: try (injection H as <-).
  all: try (destruct fail; [|discriminate]; injection H as <-).
  all: try (solve [econstructor; try eassumption; finish]).
  - eapply (I_user (AHandler k :: AFn i b :: st)); [constructor; assumption|finish|].
    eapply q_app; [eassumption|discriminate|cbn [er]; constructor|lev].
  - eapply (I_user (AHandler k :: AFn i b :: st)); [constructor; assumption|finish|].
    eapply q_app; [eassumption|discriminate|cbn [er]; constructor|lev].
  - replace (no st + 1 - 1) with (no st) by lia. eapply (I_exec2 st fi l i b k r); [assumption|assumption|finish].
  - replace (no st + 1 - 1) with (no st) by lia. eapply (I_exec2 st fi l i b k r); [assumption|assumption|finish].
  - eapply I_user; [assumption|finish|]. eapply q_app; [eassumption|discriminate|cbn [er]; constructor|lev].
  - eapply I_user; [assumption|finish|]. eapply q_app; [eassumption|discriminate|cbn [er]; constructor|lev].
Qed.

Lemma XInv_child fail s s'   : XInv s -> child_step debug child_do fail s = Some s' -> XInv s'.
Proof.
  intros HI H. destruct HI; cases; norm H; try discriminate.
  all: try (injection H as <-).
  all: try (destruct fail; [|discriminate]; injection H as <-).
  all: try (solve [econstructor; try eassumption; finish]).
  - destruct (Z.eqb_spec b 0); [contradiction|]. injection H as <-.
    eapply I_child; [assumption| |finish]. eapply q_app; [eassumption|discriminate|cbn [er]; constructor|lev].
  - destruct (Z.eqb_spec b 0); [contradiction|]. injection H as <-.
    eapply I_child; [assumption| |finish]. eapply q_app; [eassumption|discriminate|cbn [er]; constructor|lev].
  - destruct (child_do l) as [k|] eqn:D; injection H as <-.
    + eapply (I_inc st); [assumption| |finish]. eapply q_app; [eassumption|discriminate|cbn [er]; constructor; assumption|lev].
    + eapply (I_ret st); [assumption| |finish|finish]. eapply q_app; [eassumption|discriminate|cbn [er]; constructor; assumption|lev].
  - destruct (child_do l) as [k|] eqn:D; injection H as <-.
    + eapply (I_inc st); [assumption| |finish]. eapply q_app; [eassumption|discriminate|cbn [er]; constructor; assumption|lev].
    + eapply (I_ret st); [assumption| |finish|finish]. eapply q_app; [eassumption|discriminate|cbn [er]; constructor; assumption|lev].
  - eapply (I_child st); [assumption| |finish]. eapply q_app; [eassumption|discriminate|cbn [er]; constructor|lev].
  - eapply (I_child st); [assumption| |finish]. eapply q_app; [eassumption|discriminate|cbn [er]; constructor|lev].
Qed.

Lemma XInv_step s s'   : XInv s -> xstep debug spurious host_do child_do s s' -> XInv s'.
Proof.
  intros HI H. destruct H as [fail a b H|fail a b H];
    [exact (XInv_host _ _ _ HI H)|exact (XInv_child _ _ _ HI H)].
Qed.

Lemma XInv_reach s s'   : XInv s -> xreach debug spurious host_do child_do s s' -> XInv s'.
Proof. intros HI R. induction R; auto. eapply XInv_step; eauto. Qed.
End Inv.


(** ** Loading *)
Section Load.
Variable debug : bool.
Variable host_do : list event -> xact.
Variable child_do : list event -> cact.
Hypothesis nonnull : forall l i b, host_do l = XDo (HCall i b) -> b <> 0.
Hypothesis nocatch : forall l, host_do l <> XThrow true.
Variable ks : list Z.
Hypothesis quiet : forall l k, In k ks -> no_invoke l -> exists r, host_do (l ++ [EHandle k]) = XDo (HReturn r).

Definition XAll (s : conf) : Prop := LInv ks s \/ exists c0, load_start ks c0 /\ XInv host_do child_do c0 s.

Lemma plain_nonnull l i b : plain host_do l = HCall i b -> b <> 0.
Proof. unfold plain. destruct (host_do l) as [a|c] eqn:D; [intros ->; eapply nonnull; eauto|discriminate]. Qed.
Lemma plain_quiet l k i b : In k ks -> no_invoke l -> plain host_do (l ++ [EHandle k]) <> HCall i b.
Proof. intros K N. unfold plain. destruct (quiet l k K N) as (r & ->). discriminate. Qed.

Lemma host_step_loaded spurious hd fail s s' : host_step debug spurious hd fail s = Some s' -> loaded (sh s') = loaded (sh s).
Proof.
  unfold host_step. intros H. 
  repeat match type of H with
  | context [match ?x with _ => _ end] => destruct x eqn:?; try discriminate
  | context [if ?x then _ else _] => destruct x eqn:?; try discriminate
  end; injection H as <-; cbn; congruence.
Qed.
Lemma Inv_loaded hd cd c0 s : Inv hd cd c0 s -> loaded (sh s) = true.
Proof. destruct 1; reflexivity. Qed.

Lemma LInv_plain fail s : LInv ks s -> xhost_step debug false host_do fail s = host_step debug false (plain host_do) fail s.
Proof.
  intros L. unfold xhost_step. destruct (hpc s) eqn:H; auto. destruct (host_do (log s)) as [a|c] eqn:D; auto.
  destruct (hstk s) as [|f st] eqn:K; auto. exfalso.
  destruct L; cbn in *; try discriminate; try congruence.
  destruct (quiet l k) as (r & E); [| |congruence].
  - subst ks. apply in_or_app. right. left. reflexivity.
  - eapply ins_no_invoke; eauto. apply no_invoke_load1. discriminate.
Qed.

Lemma XAll_host fail s s' : LInv ks s -> xhost_step debug false host_do fail s = Some s' -> XAll s'.
Proof.
  intros L H. destruct (loaded (sh s)) eqn:Lo.
  - destruct L; cbn in Lo; try discriminate.
    + destruct H1 as [[-> [_ ->]]|[i [b [B1 [B2 B3]]]]].
      * right. exists ([], InHost, load_events done). split; [exists done; auto|].
        eapply (XInv_host debug false host_do child_do _ nonnull nocatch); [|exact H].
        eapply (I_user host_do child_do _ []); [repeat constructor|exact H2|split; [constructor|]]. symmetry. apply balance_load.
      * destruct B2; subst.
        -- right. exists ([], Requested i b, l). split.
           ++ exists done. split; auto. right. exists i, b, l. auto.
           ++ eapply (XInv_host debug false host_do child_do _ nonnull nocatch); [|exact H].
              eapply (I_req host_do child_do _ [] fi p l i b (HLoop i b)); auto; [repeat constructor|].
              split; [constructor|]. destruct B3 as (l1 & l2 & E1 & ->). pose proof (balance_load done) as X.
              rewrite E1 in X. rewrite balance_app in *. change (balance (EReq i b :: l2)) with (balance l2). cbn [level]. lia.
        -- left. unfold xhost_step in H. cbn in H. injection H as <-. eapply L_loaded; eauto. right. exists i, b. auto.
    + left. assert (E : xhost_step debug false host_do fail s = host_step debug false (plain host_do) fail s)
        by (apply LInv_plain; eapply L_quit; eauto). rewrite E in H. eapply LInv_quit_host; eauto.
  - rewrite (LInv_plain fail s L) in H.
    destruct (All_host debug (plain host_do) child_do plain_nonnull ks plain_quiet fail s s' L H) as [L'|[c0 [_ I']]]; [left; auto|].
    apply Inv_loaded in I'. apply host_step_loaded in H. congruence.
Qed.

Lemma XAll_reach s : xreach debug false host_do child_do (fresh ks) s -> XAll s.
Proof.
  intros R. induction R as [|s s' R IH Hs].
  - left. eapply (L_user _ []); [reflexivity|]. left; auto.
  - destruct IH as [IH|[c0 [A B]]].
    + destruct Hs as [fail s s' H|fail s s' H].
      * eapply XAll_host; eauto.
      * left. eapply All_child; eauto.
    + right. exists c0. split; auto. eapply XInv_step; eauto.
Qed.
End Load.

(** ** The history of the sequential program *)

Inductive xshape : list open -> list event -> Prop :=
| xsh_top l : history l -> xshape [] l
| xsh_fn i b st l cs : xshape st l -> callbacks cs -> xshape (OFn i b :: st) (l ++ EReq i b :: EInvoke i b :: cs)
| xsh_handler k st l cs : xshape st l -> calls cs -> xshape (OHandler k :: st) (l ++ ECallback k :: EHandle k :: cs).

Notation ohst := ProtoProof.hst.

Lemma xshape_calls st l cs : xshape st l -> ohst st -> calls cs -> xshape st (l ++ cs).
Proof.
  intros H Hh Hc. inversion Hh; subst.
  - inversion H; subst. constructor. apply hi_calls; auto.
  - inversion H; subst. rewrite <- app_assoc. simpl. constructor; auto. apply calls_app; auto.
Qed.
Lemma xshape_callbacks i b st l cs : xshape (OFn i b :: st) l -> callbacks cs -> xshape (OFn i b :: st) (l ++ cs).
Proof.
  intros H Hc. inversion H; subst. rewrite <- app_assoc. simpl. constructor; auto. apply callbacks_app; auto.
Qed.

Lemma xshape_throw st : ohst st -> forall l x, xshape st l -> abandoned x \/ (st <> [] /\ x = [EThrow]) -> history (l ++ x).
Proof.
  induction 1 as [|k i b t Ht IH]; intros l x S A.
  - inversion S; subst. destruct A as [A|[A _]]; [|congruence]. apply hi_abandoned; auto.
  - inversion S as [| |k' st' l1 hs S1 C1]; subst. inversion S1 as [|i' b' st' l0 cs S0 C0|]; subst.
    assert (Y : abandoned (EReq i b :: EInvoke i b :: cs ++ ECallback k :: EHandle k :: hs ++ x)).
    { destruct A as [A|[_ ->]]; [apply ab_inside; auto|apply ab_here; auto]. }
    specialize (IH l0 _ S0 (or_introl Y)). rewrite <- ?app_assoc. cbn. rewrite <- ?app_assoc. exact IH.
Qed.

Definition xgood (c : list open * control * list event) : Prop :=
  let '(st, ct, l) := c in
  match ct with
  | InHost => ohst st /\ xshape st l
  | Requested i b => ohst st /\ exists l0, l = l0 ++ [EReq i b] /\ xshape st l0
  | InSandbox => (exists i b t, st = OFn i b :: t /\ ohst t) /\ xshape st l
  | Asked k => (exists i b t, st = OFn i b :: t /\ ohst t) /\ exists l0, l = l0 ++ [ECallback k] /\ xshape st l0
  | Answered k r => (exists i b t, st = OFn i b :: t /\ ohst t) /\
      exists l0 cs, l = l0 ++ ECallback k :: EHandle k :: cs ++ [EHandled k r] /\ calls cs /\ xshape st l0
  | Returned i b => ohst st /\
      exists l0 cs, l = l0 ++ EReq i b :: EInvoke i b :: cs ++ [EReturn i b] /\ callbacks cs /\ xshape st l0
  end.

Lemma xgood_plain hd cd c c' : xgood c -> seq_step hd cd c c' -> xgood c'.
Proof.
  intros G H. destruct H; cbn [xgood] in *.
  - destruct G as [A B]. split; auto. exists l; auto.
  - destruct G as [A [l0 [-> B]]]. split; eauto. rewrite <- app_assoc. simpl.
    constructor; auto. constructor.
  - destruct G as [A B]. split; auto. exists l; auto.
  - destruct G as [[i [b [t [-> A]]]] [l0 [-> B]]]. split; [constructor; auto|].
    rewrite <- app_assoc. simpl. constructor; auto. constructor.
  - destruct G as [A B]. inversion A; subst. split; eauto.
    inversion B; subst. exists l0, cs. split; auto. rewrite <- app_assoc. reflexivity.
  - destruct G as [[i [b [t [-> A]]]] [l0 [cs [-> [B C]]]]]. split; eauto.
    replace ((l0 ++ ECallback k :: EHandle k :: cs ++ [EHandled k r]) ++ [EResume k r])
      with (l0 ++ ECallback k :: EHandle k :: cs ++ [EHandled k r; EResume k r])
      by (rewrite <- !app_assoc; simpl; rewrite <- app_assoc; reflexivity).
    apply xshape_callbacks; auto. constructor; auto. constructor.
  - destruct G as [[i' [b' [t [E A]]]] B]. injection E as -> -> ->. split; auto.
    inversion B; subst. exists l0, cs. split; auto. rewrite <- app_assoc. reflexivity.
  - destruct G as [A [l0 [cs [-> [B C]]]]]. split; auto.
    replace ((l0 ++ EReq i b :: EInvoke i b :: cs ++ [EReturn i b]) ++ [EDone i b])
      with (l0 ++ EReq i b :: EInvoke i b :: cs ++ [EReturn i b; EDone i b])
      by (rewrite <- !app_assoc; simpl; rewrite <- app_assoc; reflexivity).
    apply xshape_calls; auto. constructor; auto. constructor.
Qed.

Lemma xgood_throw k st l : xgood (OHandler k :: st, InHost, l) -> xgood ([], InHost, l ++ [EThrow]).
Proof.
  cbn. intros [A B]. split; [constructor|]. constructor. eapply xshape_throw; eauto. right. split; [discriminate|reflexivity].
Qed.

Lemma xseq_step_any hd cd st ct l st' ct' l' : xseq_step hd cd (st, ct, l) (st', ct', l') ->
  exists e, l' = l ++ [e] /\ forall m, xgood (st, ct, m) -> xgood (st', ct', m ++ [e]).
Proof.
  intros H. inversion H; subst.
  - destruct (seq_step_any _ _ _ _ _ _ _ _ H5) as [e [-> K]]. exists e. split; auto. intros m G.
    destruct (K m) as (hd' & cd' & S). eapply xgood_plain; eauto.
  - exists EThrow. split; auto. intros m. apply xgood_throw.
Qed.

Lemma xseq_shift hd cd st0 ct0 l0 m0 st ct l : xseq hd cd (st0, ct0, l0) (st, ct, l) ->
  xgood (st0, ct0, m0) -> exists x, l = l0 ++ x /\ xgood (st, ct, m0 ++ x).
Proof.
  intros H G. remember (st0, ct0, l0) as a eqn:Ea. remember (st, ct, l) as c eqn:Ec.
  revert st ct l Ec. induction H as [|c c' H IH Hs]; intros st ct l Ec.
  - subst. injection Ec as -> -> ->. exists []. rewrite !app_nil_r. auto.
  - subst c'. destruct c as [[st1 ct1] l1]. destruct (IH st1 ct1 l1 eq_refl) as [x [-> Gx]].
    destruct (xseq_step_any _ _ _ _ _ _ _ _ Hs) as [e [-> K]].
    exists (x ++ [e]). rewrite !app_assoc. split; auto.
Qed.

Lemma xload_complete hd cd ks c0 l : load_start ks c0 -> xseq hd cd c0 ([], InHost, l) -> history_from ks l.
Proof.
  intros [done [E [-> |[i [b [l0 [-> [l1 [l2 [E1 ->]]]]]]]]]] S; exists done; (split; [exact E|]).
  - left. destruct (xseq_shift _ _ _ _ _ [] _ _ _ S) as [x [-> [_ G]]].
    { split; [constructor|]. constructor. constructor. }
    exists x. split; auto. inversion G; auto.
  - right. destruct (xseq_shift _ _ _ _ _ [EReq i b] _ _ _ S) as [x [-> [_ G]]].
    { split; [constructor|]. exists []. split; auto. constructor. constructor. }
    exists l1, l2, i, b, x. split; auto. split; [rewrite <- app_assoc; reflexivity|].
    inversion G; auto.
Qed.

(** ** Progress *)
Section Progress.
Variable debug spurious : bool.
Variable host_do : list event -> xact.
Variable child_do : list event -> cact.
Variable c0 : list open * control * list event.
Hypothesis nonnull : forall l i b, host_do l = XDo (HCall i b) -> b <> 0.
Hypothesis nocatch : forall l, host_do l <> XThrow true.
Notation I := (XInv host_do child_do c0).
Notation stp := (xstep debug spurious host_do child_do).
Notation rch := (xreach debug spurious host_do child_do).

Lemma xreach_trans a b c : rch a b -> rch b c -> rch a c.
Proof. intros H1 H2. induction H2; auto. eapply xreach_step; eauto. Qed.
Lemma xone s s' : stp s s' -> better s s' -> exists s', rch s s' /\ better s s'.
Proof. intros. exists s'. split; auto. eapply xreach_step; eauto. constructor. Qed.
Lemma xtwo s s1 s' : stp s s1 -> stp s1 s' -> better s s' -> exists s', rch s s' /\ better s s'.
Proof.
  intros. exists s'. split; auto. eapply xreach_step; eauto. eapply xreach_step; eauto. constructor.
Qed.

Ltac cases := repeat match goal with
  | [ H : parked _ _ |- _ ] => destruct H
  | [ H : waiting _ _ _ _ |- _ ] => destruct H
  | [ H : _ \/ _ |- _ ] => destruct H
  | [ H : _ /\ _ |- _ ] => destruct H
  end; subst.
Ltac comp := unfold xhost_step;
  cbn [host_step child_step sh hpc hstk cpc cstk reqs resps log depth findex mbuf cflag pflag executing
       should_exit loaded set_depth set_findex set_mbuf set_cflag set_pflag set_executing
       set_should_exit set_loaded wake wait Z.ltb Z.eqb Z.compare gone andb orb negb cf hf loading existsb];
  rewrite ?ltb_succ, ?eqb_succ, ?Z.ltb_irrefl, ?Z.eqb_refl, ?cf_not_loading, ?andb_false_r, ?orb_false_r;
  cbn [andb orb negb]; try reflexivity.
Ltac bet := first [eapply better_log; reflexivity | right; split; [reflexivity|cbn; lia]].
Ltac h1 := eapply xone; [eapply xstep_host with (fail := true); comp|bet].
Ltac c1 := eapply xone; [eapply xstep_child with (fail := true); comp|bet].
Ltac h2 := eapply xtwo; [eapply xstep_host with (fail := true); comp
  |eapply xstep_host with (fail := true); comp|bet].
Ltac c2 := eapply xtwo; [eapply xstep_child with (fail := true); comp
  |eapply xstep_child with (fail := true); comp|bet].

Lemma xuser s : hpc s = HUser -> exists e s', xhost_step debug spurious host_do true s = Some s' /\ log s' = log s ++ [e].
Proof.
  intros E. unfold xhost_step, host_step, plain. rewrite E.
  destruct (host_do (log s)) as [[i b|r]|c], (hstk s) as [|[]]; cbn; do 2 eexists; (split; [reflexivity|cbn; reflexivity]).
Qed.

Lemma can_improve s : I s -> hpc s <> HEnd -> exists s', rch s s' /\ better s s'.
Proof.
  intros HI NE. destruct (match hpc s with HUser => true | _ => false end) eqn:U.
  { assert (E : hpc s = HUser) by (destruct (hpc s); congruence).
    destruct (xuser s E) as (e & s' & A & B). eapply xone; [eapply xstep_host; exact A|eapply better_log; exact B]. }
  destruct HI; try discriminate U.
  all: cases; try (exfalso; apply NE; reflexivity).
  all: try (solve [h1 | c1 | h2 | c2]).
  all: try (eapply xone; [eapply xstep_child with (fail := true); comp;
     match goal with [N : ?b <> 0 |- _] => rewrite (proj2 (Z.eqb_neq b 0) N) end; reflexivity|bet]).
  all: destruct (child_do l) eqn:D;
    (eapply xone; [eapply xstep_child with (fail := true); comp; rewrite D; reflexivity|bet]).
Qed.

Lemma xprogress s : I s -> hpc s <> HEnd ->
  exists s', rch s s' /\ ((length (log s) < length (log s'))%nat \/ hpc s' = HEnd).
Proof.
  remember (mes s) as n eqn:E. revert s E. induction n as [n IH] using lt_wf_ind. intros s -> HI NE.
  destruct (can_improve s HI NE) as [s1 [R1 [B|[B1 B2]]]]; [eauto|].
  assert (I1 : I s1) by (eapply XInv_reach; eauto).
  assert (D : hpc s1 = HEnd \/ hpc s1 <> HEnd) by (destruct (hpc s1); auto; right; discriminate).
  destruct D as [D|D]; [eauto|].
  destruct (IH _ B2 s1 eq_refl I1 D) as [s2 [R2 X]]. rewrite B1 in X. exists s2.
  split; auto. eapply xreach_trans; eauto.
Qed.
End Progress.

Lemma xseq_no_quit hd cd st0 ct0 l0 st ct l : xseq hd cd (st0, ct0, l0) (st, ct, l) ->
  ~ In EQuit l0 -> ~ In EQuit l.
Proof.
  intros H. remember (st0, ct0, l0) as a eqn:Ea. remember (st, ct, l) as c eqn:Ec.
  revert st ct l Ec. induction H as [|c c' H IH Hs]; intros st ct l Ec N.
  - subst. injection Ec as -> -> ->. auto.
  - subst. destruct c as [[st1 ct1] l1]. specialize (IH st1 ct1 l1 eq_refl N).
    inversion Hs as [? ? ? ? D S|]; subst; [inversion S; subst|]; rewrite in_app_iff; cbn; intuition discriminate.
Qed.
Lemma xload_no_quit hd cd ks c0 st ct l : load_start ks c0 -> xseq hd cd c0 (st, ct, l) -> ~ In EQuit l.
Proof.
  assert (N : forall done, ~ In EQuit (load_events done)).
  { intros done X. apply in_flat_map in X as [[k r] [_ X]]. cbn in X. intuition discriminate. }
  intros [done [E [-> |[i [b [l0 [-> [l1 [l2 [E1 ->]]]]]]]]]] S; eapply xseq_no_quit in S; eauto.
  specialize (N done). rewrite E1, in_app_iff in N. rewrite in_app_iff. cbn. intuition discriminate.
Qed.
Lemma xhost_log debug spurious host_do fail s s' :
  xhost_step debug spurious host_do fail s = Some s' -> exists x, log s' = log s ++ x.
Proof.
  unfold xhost_step. intros H. destruct (hpc s); try (eapply host_log; eassumption).
  destruct (host_do (log s)); try (eapply host_log; eassumption).
  destruct (hstk s); try (eapply host_log; eassumption). injection H as <-. cbn. eauto.
Qed.
Lemma xreach_log debug spurious host_do child_do s s' :
  xreach debug spurious host_do child_do s s' -> exists x, log s' = log s ++ x.
Proof.
  intros H. induction H as [|s1 s2 H [x IH] St]; [exists []; rewrite app_nil_r; auto|].
  assert (exists y, log s2 = log s1 ++ y) as [y ->]; [|exists (x ++ y); rewrite IH, app_assoc; auto].
  destruct St as [f a a' K|f a a' K]; [apply xhost_log in K|apply child_log in K]; auto.
Qed.
