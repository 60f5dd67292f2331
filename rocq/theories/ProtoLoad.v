(** Loading, progress and shutdown of the protocol. *)
From Coq Require Import List ZArith Bool Lia.
From Verif Require Import ProtoModel ProtoSpec ProtoProof.
Import ListNotations.
Open Scope Z_scope.

Ltac cases := repeat match goal with
  | [ H : parked _ _ |- _ ] => destruct H
  | [ H : waiting _ _ _ _ |- _ ] => destruct H
  | [ H : _ \/ _ |- _ ] => destruct H
  | [ H : _ /\ _ |- _ ] => destruct H
  | [ H : exists _, _ |- _ ] => destruct H
  end; subst.
Ltac norm H :=
  cbn [host_step child_step sh hpc hstk cpc cstk reqs resps log depth findex mbuf cflag pflag executing
       should_exit loaded set_depth set_findex set_mbuf set_cflag set_pflag set_executing
       set_should_exit set_loaded wake wait Z.ltb Z.eqb Z.compare gone andb orb negb cf hf loading existsb] in H;
  rewrite ?ltb_succ, ?eqb_succ, ?Z.ltb_irrefl, ?Z.eqb_refl, ?cf_not_loading, ?andb_false_r, ?orb_false_r,
    ?orb_true_r in H;
  cbn [andb orb negb] in H.
Ltac norm0 H :=
  cbn [host_step child_step sh hpc hstk cpc cstk reqs resps log depth findex mbuf cflag pflag executing
       should_exit loaded set_depth set_findex set_mbuf set_cflag set_pflag set_executing
       set_should_exit set_loaded gone andb orb negb loading existsb] in H; unfold wake, wait in H.
Ltac finish := solve [unfold parked, waiting in *; auto 12].


Lemma load_events_snoc done k r :
  load_events (done ++ [(k, r)]) = load_events done ++ [ECallback k; EHandle k; EHandled k r; EResume k r].
Proof. unfold load_events. rewrite flat_map_app. reflexivity. Qed.


Lemma no_invoke_app a b : no_invoke (a ++ b) <-> no_invoke a /\ no_invoke b.
Proof.
  split.
  - intros H. split; intros i f Hi; apply (H i f), in_or_app; auto.
  - intros [A B] i f Hi. apply in_app_or in Hi as [Hi|Hi]; [apply (A i f)|apply (B i f)]; auto.
Qed.
Lemma no_invoke_load done : no_invoke (load_events done).
Proof.
  intros i b H. unfold load_events in H. apply in_flat_map in H as [[k r] [_ H]].
  simpl in H. intuition discriminate.
Qed.

Lemma ins_snoc i b m l e : ins i b m l -> ins i b (m ++ [e]) (l ++ [e]).
Proof.
  intros [l1 [l2 [-> ->]]]. exists l1, (l2 ++ [e]). rewrite <- !app_assoc. auto.
Qed.
Lemma ins_last i b m : ins i b m (m ++ [EReq i b]).
Proof. exists m, []. rewrite app_nil_r. auto. Qed.
Lemma ins_no_invoke i b m l : ins i b m l -> no_invoke m -> no_invoke l.
Proof.
  intros [l1 [l2 [-> ->]]] H. apply no_invoke_app in H as [A B].
  apply no_invoke_app. split; auto. intros x y [E|E]; [discriminate|]. exact (B x y E).
Qed.

(** The host before its first call, or in its loading loop. *)
Definition base (h : hstate) (ex : bool) (m l : list event) : Prop :=
  (h = HUser /\ ex = false /\ l = m)
  \/ (exists i b, b <> 0 /\ (h = HLoop i b \/ h = HDepth i b) /\ ins i b m l).
Definition basew (h : hstate) (ex : bool) (m l : list event) : Prop :=
  base h ex m l \/ (exists i b, b <> 0 /\ h = HLWait i b /\ ins i b m l).

Lemma base_snoc h ex m l e : base h ex m l -> base h ex (m ++ [e]) (l ++ [e]).
Proof.
  intros [[A [B ->]]|[i [b [A [B C]]]]]; [left; auto|right].
  exists i, b. split; auto. split; auto. apply ins_snoc; auto.
Qed.
Lemma base_ex h ex m l : base h ex m l -> base h false m l.
Proof. intros [[A [B C]]|C]; [left; auto|right; auto]. Qed.
Lemma basew_ex h ex m l : basew h ex m l -> basew h false m l.
Proof. intros [A|A]; [left; eapply base_ex; eauto|right; auto]. Qed.

Section Load.
Variable debug : bool.
Variable host_do : list event -> hact.
Variable child_do : list event -> cact.
Hypothesis nonnull : forall l i b, host_do l = HCall i b -> b <> 0.
Variable ks : list Z.
(** Handlers of callbacks made while loading do not call into the sandbox. *)
Hypothesis quiet : forall l k i b, In k ks -> no_invoke l -> host_do (l ++ [EHandle k]) <> HCall i b.

Definition quitting (h : hstate) : bool :=
  match h with HQuit1 | HQuit2 | HQuit3 | HQuit4 | HQuit5 | HEnd => true | _ => false end.
Definition woken (h : hstate) : bool := match h with HQuit5 | HEnd => true | _ => false end.
Definition marked (h : hstate) : bool := match h with HQuit4 | HQuit5 | HEnd => true | _ => false end.

Inductive LInv : conf -> Prop :=
| L_user done rest ex h l fi : ks = map fst done ++ rest -> base h ex (load_events done) l ->
    LInv (Conf (Shared 0 fi 0 0 0 ex false false) h [] CUser [KLoad rest] [] [] l)
| L_inc done k rest ex h l fi : ks = map fst done ++ k :: rest ->
    base h ex (load_events done ++ [ECallback k]) l ->
    LInv (Conf (Shared 0 fi 0 0 0 ex false false) h [] (CInc k) [KLoad rest] [k] [] l)
| L_exec done k rest ex h l fi : ks = map fst done ++ k :: rest ->
    basew h ex (load_events done ++ [ECallback k]) l ->
    LInv (Conf (Shared 1 fi 0 0 0 ex false false) h [] (CExec k 1) [KLoad rest] [k] [] l)
| L_wake done k rest h l fi : ks = map fst done ++ k :: rest ->
    basew h false (load_events done ++ [ECallback k]) l ->
    LInv (Conf (Shared 1 fi 0 0 0 false false false) h [] (CWake k 1) [KLoad rest] [k] [] l)
| L_asked done k rest h l p fi : ks = map fst done ++ k :: rest ->
    basew h false (load_events done ++ [ECallback k]) l -> parked 1 p ->
    LInv (Conf (Shared 1 fi 0 0 1 false false false) h [] p [KCb k; KLoad rest] [k] [] l)
| L_handle done k rest l p i b fi : ks = map fst done ++ k :: rest -> b <> 0 ->
    ins i b (load_events done ++ [ECallback k]) l -> parked 1 p ->
    LInv (Conf (Shared 1 fi 0 0 0 false false false) (HLHandle i b) [] p [KCb k; KLoad rest] [k] [] l)
| L_handler done k rest l p i b fi : ks = map fst done ++ k :: rest -> b <> 0 ->
    ins i b (load_events done ++ [ECallback k]) l -> parked 1 p ->
    LInv (Conf (Shared 1 fi 0 0 0 false false false) HUser [FLoad i b k] p [KCb k; KLoad rest] [] []
            (l ++ [EHandle k]))
| L_dec done k r rest l p i b d fi ex h : ks = map fst done ++ k :: rest -> b <> 0 ->
    ins i b (load_events done ++ [ECallback k; EHandle k; EHandled k r]) l -> parked 1 p ->
    (h = HLDec i b /\ d = 1 /\ ex = false) \/ (h = HLExec i b /\ d = 0 /\ ex = false)
    \/ (h = HLWake i b /\ d = 0 /\ ex = true) ->
    LInv (Conf (Shared d fi 0 0 0 ex false false) h [] p [KCb k; KLoad rest] [] [r] l)
| L_ans done k r rest l p i b h fi : ks = map fst done ++ k :: rest -> b <> 0 ->
    ins i b (load_events done ++ [ECallback k; EHandle k; EHandled k r]) l -> parked 1 p ->
    h = HLoop i b \/ h = HDepth i b ->
    LInv (Conf (Shared 0 fi 0 1 0 true false false) h [] p [KCb k; KLoad rest] [] [r] l)
| L_res done k r rest l p i b h fi : ks = map fst done ++ k :: rest -> b <> 0 ->
    ins i b (load_events done ++ [ECallback k; EHandle k; EHandled k r]) l ->
    h = HLoop i b \/ h = HDepth i b ->
    p = CInv 1 \/ p = CIdx 1 \/ p = CBuf 1 fi \/ p = CNull 1 fi 0 \/ p = CDepth 1 \/ p = CRecv ->
    LInv (Conf (Shared 0 fi 0 0 0 true false false) h [] p [KCb k; KLoad rest] [] [r] l)
| L_fin done h l ex p fi : ks = map fst done -> base h ex (load_events done) l ->
    p = CFin1 \/ (p = CFin2 /\ ex = false) ->
    LInv (Conf (Shared 0 fi 0 0 0 ex false false) h [] p [] [] [] l)
| L_loaded done h l p fi : ks = map fst done -> base h false (load_events done) l -> parked 0 p ->
    LInv (Conf (Shared 0 fi 0 0 0 false false true) h [] p [] [] [] l)
(* the host destroys the library before calling it *)
| L_quit s l1 l2 : quitting (hpc s) = true -> hstk s = [] -> mbuf (sh s) = 0 ->
    (woken (hpc s) = false -> cflag (sh s) = 0) ->
    (marked (hpc s) = false -> executing (sh s) = false) ->
    (forall f, In f (cstk s) -> match f with KRun _ _ _ => False | _ => True end) ->
    (forall d i b, cpc s = CNull d i b -> b = 0) ->
    log s = l1 ++ EQuit :: l2 -> no_invoke (l1 ++ l2) ->
    LInv s.

Notation Q c0 := (Inv host_do child_do c0).
Definition All (s : conf) : Prop := LInv s \/ exists c0, load_start ks c0 /\ Q c0 s.

Lemma start_quit (s : conf) (m : list event) :
  hpc s = HUser -> hstk s = [] -> mbuf (sh s) = 0 -> cflag (sh s) = 0 -> executing (sh s) = false ->
  (forall f, In f (cstk s) -> match f with KRun _ _ _ => False | _ => True end) ->
  (forall d i b, cpc s = CNull d i b -> b = 0) -> no_invoke (log s) ->
  LInv (Conf (sh s) HQuit1 [] (cpc s) (cstk s) (reqs s) (resps s) (log s ++ [EQuit])).
Proof.
  intros. eapply L_quit with (l1 := log s) (l2 := []); cbn; auto.
  rewrite app_nil_r. auto.
Qed.

Lemma base_user_step fi d pf p st rq l m fail s' :
  l = m -> no_invoke m ->
  (forall f, In f st -> match f with KRun _ _ _ => False | _ => True end) ->
  (forall d i b, p = CNull d i b -> b = 0) ->
  (forall i b, b <> 0 -> LInv (Conf (Shared d fi 0 0 pf false false false) (HLoop i b) [] p st rq [] (l ++ [EReq i b]))) ->
  host_step debug false host_do fail (Conf (Shared d fi 0 0 pf false false false) HUser [] p st rq [] l) = Some s' ->
  LInv s'.
Proof.
  intros -> N F1 F2 F3 H. norm H. destruct (host_do m) as [i b|r] eqn:D; injection H as <-.
  - apply F3. eapply nonnull; eauto.
  - eapply L_quit with (l1 := m) (l2 := []); cbn; auto. rewrite app_nil_r; auto.
Qed.

Lemma no_invoke_load1 done e : (forall i b, e <> EInvoke i b) -> no_invoke (load_events done ++ [e]).
Proof.
  intros H. apply no_invoke_app. split; [apply no_invoke_load|].
  intros i b [E|[]]. exact (H i b E).
Qed.

Lemma LInv_quit_host fail s s' l1 l2 :
  quitting (hpc s) = true -> hstk s = [] -> mbuf (sh s) = 0 ->
  (woken (hpc s) = false -> cflag (sh s) = 0) ->
  (marked (hpc s) = false -> executing (sh s) = false) ->
  (forall f, In f (cstk s) -> match f with KRun _ _ _ => False | _ => True end) ->
  (forall d i b, cpc s = CNull d i b -> b = 0) ->
  log s = l1 ++ EQuit :: l2 -> no_invoke (l1 ++ l2) ->
  host_step debug false host_do fail s = Some s' -> LInv s'.
Proof.
  intros A B C D E F G L N H. destruct s as [[d fi mb cfl pf ex se lo] h hs p cs rq rs lg].
  cbn in *. subst.
  destruct h; try discriminate; norm H; try discriminate.
  - destruct (gone p) eqn:Gp; injection H as <-; eapply L_quit; cbn; eauto; discriminate.
  - injection H as <-; eapply L_quit; cbn; eauto.
  - rewrite E in H by auto. norm H. injection H as <-; eapply L_quit; cbn; eauto; try discriminate.
  - rewrite D in H by auto. norm H. injection H as <-; eapply L_quit; cbn; eauto; discriminate.
  - destruct (gone p) eqn:Gp; [|discriminate]. injection H as <-; eapply L_quit; cbn; eauto; discriminate.
Qed.

Lemma LInv_quit_child fail s s' l1 l2 :
  quitting (hpc s) = true -> hstk s = [] -> mbuf (sh s) = 0 ->
  (woken (hpc s) = false -> cflag (sh s) = 0) ->
  (marked (hpc s) = false -> executing (sh s) = false) ->
  (forall f, In f (cstk s) -> match f with KRun _ _ _ => False | _ => True end) ->
  (forall d i b, cpc s = CNull d i b -> b = 0) ->
  log s = l1 ++ EQuit :: l2 -> no_invoke (l1 ++ l2) ->
  child_step debug child_do fail s = Some s' -> LInv s'.
Proof.
  intros A B C D E F G L N H. destruct s as [[d fi mb cfl pf ex se lo] h hs p cs rq rs lg].
  cbn in *. subst.
  assert (LS : forall e, (forall i b, e <> EInvoke i b) ->
     (l1 ++ EQuit :: l2) ++ [e] = l1 ++ EQuit :: (l2 ++ [e]) /\ no_invoke (l1 ++ l2 ++ [e])).
  { intros e He. split; [rewrite <- app_assoc; reflexivity|].
    rewrite app_assoc. apply no_invoke_app. split; auto. intros i b [X|[]]. exact (He i b X). }
  destruct p; norm0 H; try discriminate.
  - destruct cs as [|[d1 i1 b1|k1|[|k1 rest]] cs]; try discriminate.
    + exfalso. apply (F (KRun d1 i1 b1)). left; auto.
    + injection H as <-. eapply L_quit; cbn; eauto; try discriminate.
      intros f Hf. apply F. right; auto.
    + injection H as <-. destruct (LS (ECallback k1)) as [E1 E2]; [discriminate|].
      eapply L_quit; cbn; eauto; try discriminate.
      intros f [<-|Hf]; auto. apply F. right; auto.
  - injection H as <-. eapply L_quit; cbn; eauto; try discriminate.
  - injection H as <-. eapply L_quit; cbn; eauto; try discriminate.
  - destruct (pf =? 0); injection H as <-.
    + eapply L_quit; cbn; eauto; try discriminate. intros f [<-|Hf]; auto. apply F; auto.
    + eapply L_quit; cbn; eauto; try discriminate.
  - destruct se; injection H as <-; eapply L_quit; cbn; eauto; try discriminate.
  - destruct (0 <? cfl) eqn:Z0.
    + injection H as <-. eapply L_quit; cbn; eauto; try discriminate.
      intros W. specialize (D W). subst. discriminate.
    + destruct fail; [|discriminate]. injection H as <-; eapply L_quit; cbn; eauto; try discriminate.
  - destruct (debug && negb ex); injection H as <-; eapply L_quit; cbn; eauto; try discriminate.
  - injection H as <-. eapply L_quit; cbn; eauto; try discriminate.
  - injection H as <-. eapply L_quit; cbn; eauto. intros ? ? ? X. injection X as _ _ <-. reflexivity.
  - rewrite (G _ _ _ eq_refl) in H. cbn in H. injection H as <-. eapply L_quit; cbn; eauto; discriminate.
  - destruct (d =? d0); [injection H as <-; eapply L_quit; cbn; eauto; discriminate|].
    destruct cs as [|[]]; injection H as <-; eapply L_quit; cbn; eauto; discriminate.
  - injection H as <-. eapply L_quit; cbn; eauto; try discriminate.
  - destruct (pf =? 0); injection H as <-; eapply L_quit; cbn; eauto; try discriminate.
  - destruct rs as [|r rs]; [discriminate|]. destruct cs as [|[d1 i1 b1|k1|rest] cs]; try discriminate.
    injection H as <-. destruct (LS (EResume k1 r)) as [E1 E2]; [discriminate|].
    eapply L_quit; cbn; eauto; try discriminate. intros f Hf. apply F. right; auto.
  - injection H as <-. eapply L_quit; cbn; eauto; try discriminate.
  - injection H as <-. eapply L_quit; cbn; eauto; try discriminate.
Qed.

Lemma All_host fail s s' : LInv s -> host_step debug false host_do fail s = Some s' -> All s'.
Proof.
  intros HI H. destruct HI.
  - left. destruct H1 as [[-> [-> ->]]|[i [b [B1 [B2 B3]]]]].
    + eapply base_user_step; eauto using no_invoke_load.
      * intros f [<-|[]]; auto.
      * discriminate.
      * intros i b Hb. eapply L_user; eauto. right. exists i, b. split; auto. split; auto. apply ins_last.
    + destruct B2; subst; norm H; injection H as <-; eapply L_user; eauto; right; exists i, b; auto.
  - left. destruct H1 as [[-> [-> ->]]|[i [b [B1 [B2 B3]]]]].
    + eapply base_user_step; eauto.
      * apply no_invoke_load1; discriminate.
      * intros f [<-|[]]; auto.
      * discriminate.
      * intros i b Hb. eapply L_inc; eauto. right. exists i, b. split; auto. split; auto. apply ins_last.
    + destruct B2; subst; norm H; injection H as <-; eapply L_inc; eauto; right; exists i, b; auto.
  - left. destruct H1 as [[[-> [-> ->]]|[i [b [B1 [B2 B3]]]]]|[i [b [B1 [B2 B3]]]]].
    + eapply base_user_step; eauto.
      * apply no_invoke_load1; discriminate.
      * intros f [<-|[]]; auto.
      * discriminate.
      * intros i b Hb. eapply L_exec; eauto. left. right. exists i, b. split; auto. split; auto. apply ins_last.
    + destruct B2; subst; norm H; injection H as <-; eapply L_exec; eauto.
      * left; right; exists i, b; auto.
      * right; exists i, b; auto.
    + subst. norm H. destruct fail; discriminate.
  - left. destruct H1 as [[[-> [_ ->]]|[i [b [B1 [B2 B3]]]]]|[i [b [B1 [B2 B3]]]]].
    + eapply base_user_step; eauto.
      * apply no_invoke_load1; discriminate.
      * intros f [<-|[]]; auto.
      * discriminate.
      * intros i b Hb. eapply L_wake; eauto. left. right. exists i, b. split; auto. split; auto. apply ins_last.
    + destruct B2; subst; norm H; injection H as <-; eapply L_wake; eauto.
      * left; right; exists i, b; auto.
      * right; exists i, b; auto.
    + subst. norm H. destruct fail; discriminate.
  - left. destruct H1 as [[[-> [_ ->]]|[i [b [B1 [B2 B3]]]]]|[i [b [B1 [B2 B3]]]]].
    + eapply base_user_step; eauto.
      * apply no_invoke_load1; discriminate.
      * intros f [<-|[<-|[]]]; auto.
      * destruct H2; subst; discriminate.
      * intros i b Hb. eapply L_asked; eauto. left. right. exists i, b. split; auto. split; auto. apply ins_last.
    + destruct B2; subst; norm H; injection H as <-; eapply L_asked; eauto.
      * left; right; exists i, b; auto.
      * right; exists i, b; auto.
    + subst. norm H. injection H as <-. eapply L_handle; eauto.
  - left. norm H. injection H as <-. eapply L_handler; eauto.
  - left. norm H. destruct (host_do (l ++ [EHandle k])) as [i' b'|r] eqn:D.
    + exfalso. eapply quiet; [| |exact D].
      * subst ks. apply in_or_app. right. left. reflexivity.
      * eapply ins_no_invoke; eauto. apply no_invoke_load1; discriminate.
    + injection H as <-. eapply L_dec; eauto.
      replace (load_events done ++ [ECallback k; EHandle k; EHandled k r])
        with (((load_events done ++ [ECallback k]) ++ [EHandle k]) ++ [EHandled k r])
        by (rewrite <- !app_assoc; reflexivity).
      apply ins_snoc. apply ins_snoc. auto.
  - left. cases; norm H; injection H as <-.
    all: try (eapply L_dec; [eauto|eauto|eauto|finish|auto 6]; fail).
    all: eapply L_ans; eauto; finish.
  - left. cases; norm H; injection H as <-; eapply L_ans; eauto; finish.
  - left. cases; norm H; injection H as <-; eapply L_res; eauto; finish.
  - left. destruct H1 as [[-> [-> ->]]|[i [b [B1 [B2 B3]]]]].
    + eapply base_user_step; eauto using no_invoke_load.
      * intros f [].
      * cases; discriminate.
      * intros i b Hb. eapply L_fin; eauto. right. exists i, b. split; auto. split; auto. apply ins_last.
    + destruct B2; subst; norm H; injection H as <-; eapply L_fin; eauto; right; exists i, b; auto.
  - destruct H1 as [[-> [_ ->]]|[i [b [B1 [B2 B3]]]]].
    + right. exists ([], InHost, load_events done). split.
      * exists done. auto.
      * eapply (Inv_host debug false host_do child_do _ nonnull); [|exact H].
        eapply (I_user host_do child_do _ []); [constructor|exact H2|constructor].
    + destruct B2; subst.
      * right. exists ([], Requested i b, l). split.
        -- exists done. split; auto. right. exists i, b, l. auto.
        -- eapply (Inv_host debug false host_do child_do _ nonnull); [|exact H].
           eapply (I_req host_do child_do _ [] fi p l i b (HLoop i b)); auto; constructor.
      * left. norm H. injection H as <-. eapply L_loaded; eauto. right. exists i, b. auto.
  - left. eapply LInv_quit_host; eauto.
Qed.

Lemma All_child fail s s' : LInv s -> child_step debug child_do fail s = Some s' -> LInv s'.
Proof.
  intros HI H. destruct HI.
  - norm H. destruct rest as [|k rest]; injection H as <-.
    + eapply L_fin; eauto. rewrite app_nil_r in H0. auto.
    + eapply L_inc; eauto. apply base_snoc; auto.
  - norm H. injection H as <-. eapply L_exec; eauto. left; auto.
  - norm H. injection H as <-. eapply L_wake; eauto. eapply basew_ex; eauto.
  - norm H. injection H as <-. eapply L_asked; eauto. finish.
  - destruct H2; subst; norm H.
    + injection H as <-. eapply L_asked; eauto. finish.
    + destruct fail; [|discriminate]. injection H as <-. eapply L_asked; eauto. finish.
  - destruct H3; subst; norm H.
    + injection H as <-. eapply L_handle; eauto. finish.
    + destruct fail; [|discriminate]. injection H as <-. eapply L_handle; eauto. finish.
  - destruct H3; subst; norm H.
    + injection H as <-. eapply L_handler; eauto. finish.
    + destruct fail; [|discriminate]. injection H as <-. eapply L_handler; eauto. finish.
  - destruct H3; subst; norm H.
    + injection H as <-. eapply L_dec; eauto. finish.
    + destruct fail; [|discriminate]. injection H as <-. eapply L_dec; eauto. finish.
  - destruct H3; subst; norm H.
    + injection H as <-. eapply L_ans; eauto. finish.
    + injection H as <-. eapply L_res; eauto.
  - destruct H4 as [->|[->|[->|[->|[->| ->]]]]]; norm H.
    + injection H as <-. eapply L_res; eauto 10.
    + injection H as <-. eapply L_res; eauto 10.
    + injection H as <-. eapply L_res; eauto 10.
    + injection H as <-. eapply L_res; eauto 10.
    + injection H as <-. eapply L_res; eauto 10.
    + injection H as <-. eapply (L_user (done ++ [(k, r)])).
      * rewrite map_app. cbn. rewrite <- app_assoc. exact H0.
      * right. exists i, b. split; auto. split; auto. rewrite load_events_snoc.
        replace (load_events done ++ [ECallback k; EHandle k; EHandled k r; EResume k r])
          with ((load_events done ++ [ECallback k; EHandle k; EHandled k r]) ++ [EResume k r])
          by (rewrite <- app_assoc; reflexivity).
        apply ins_snoc; auto.
  - destruct H2 as [->|[-> ->]]; norm H; injection H as <-.
    + eapply L_fin; eauto. eapply base_ex; eauto.
    + eapply L_loaded; eauto. finish.
  - destruct H2; subst; norm H.
    + injection H as <-. eapply L_loaded; eauto. finish.
    + destruct fail; [|discriminate]. injection H as <-. eapply L_loaded; eauto. finish.
  - eapply LInv_quit_child; eauto.
Qed.

Lemma All_reach s : reach debug false host_do child_do (fresh ks) s -> All s.
Proof.
  intros R. induction R as [|s s' R IH Hs].
  - left. eapply (L_user []); [reflexivity|]. left; auto.
  - destruct IH as [IH|[c0 [A B]]].
    + destruct Hs as [fail s s' H|fail s s' H].
      * eapply All_host; eauto.
      * left. eapply All_child; eauto.
    + right. exists c0. split; auto. eapply Inv_step; eauto.
Qed.
End Load.
