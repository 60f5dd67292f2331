(** A library that has been called finishes loading: from every reachable state
    in which the host's first call is waiting for the library to load, the call
    can go on. *)
From Coq Require Import List ZArith Bool Lia.
From Verif Require Import ProtoModel ProtoSpec ProtoProof ProtoLoad ProtoProgress ProtoProps ProtoDeath.
Import ListNotations.
Open Scope Z_scope.

Section LoadProgress.
Variable debug : bool.
Variable host_do : list event -> hact.
Variable child_do : list event -> cact.
Hypothesis nonnull : forall l i b, host_do l = HCall i b -> b <> 0.
Variable ks : list Z.
Hypothesis quiet : forall l k i b, In k ks -> no_invoke l -> host_do (l ++ [EHandle k]) <> HCall i b.

Notation rch := (reach debug false host_do child_do).
Notation stp := (step debug false host_do child_do).

(** The called function starts. *)
Definition arrives (i b : Z) (s : conf) : Prop :=
  exists s' l, rch s s' /\ loaded (sh s') = true /\ log s' = l ++ [EInvoke i b].

Lemma go i b s s1 : stp s s1 -> arrives i b s1 -> arrives i b s.
Proof.
  intros St (s' & l & R & E). exists s', l. split; auto.
  eapply reach_trans; [|exact R]. eapply reach_step; [constructor|exact St].
Qed.

Ltac host := eapply go; [eapply step_host with (fail := false); cbn; reflexivity|].
Ltac child := eapply go; [eapply step_child with (fail := false); cbn; reflexivity|].
Definition called_ (h : hstate) (i b : Z) : Prop := h = HLoop i b \/ h = HDepth i b.

Lemma at_pick l i b h p : b <> 0 ->
  p = CInv 0 \/ p = CIdx 0 \/ p = CBuf 0 i \/ p = CNull 0 i b ->
  arrives i b (Conf (Shared 0 i b 0 0 true false true) h [] p [] [] [] l).
Proof.
  intros B P.
  assert (X4 : arrives i b (Conf (Shared 0 i b 0 0 true false true) h [] (CNull 0 i b) [] [] [] l)).
  { eapply go; [eapply step_child with (fail := false); cbn; rewrite (proj2 (Z.eqb_neq b 0) B); reflexivity|].
    eexists _, l. split; [constructor|]. split; reflexivity. }
  assert (X3 : arrives i b (Conf (Shared 0 i b 0 0 true false true) h [] (CBuf 0 i) [] [] [] l)) by (child; auto).
  assert (X2 : arrives i b (Conf (Shared 0 i b 0 0 true false true) h [] (CIdx 0) [] [] [] l)) by (child; auto).
  assert (X1 : arrives i b (Conf (Shared 0 i b 0 0 true false true) h [] (CInv 0) [] [] [] l)).
  { eapply go; [eapply step_child with (fail := false); cbn; rewrite andb_false_r; reflexivity|auto]. }
  destruct P as [-> |[-> |[-> | ->]]]; auto.
Qed.
Lemma at_sent l i b h p : b <> 0 -> parked 0 p ->
  arrives i b (Conf (Shared 0 i b 1 0 true false true) h [] p [] [] [] l).
Proof. intros B [-> | ->]; [child|]; child; apply at_pick; auto. Qed.
Lemma at_wake0 l i b p : b <> 0 -> parked 0 p ->
  arrives i b (Conf (Shared 0 i b 0 0 true false true) (HWake i b 0) [] p [] [] [] l).
Proof. intros B P. host. apply at_sent; auto. Qed.
Lemma at_exec0 l i b p : b <> 0 -> parked 0 p ->
  arrives i b (Conf (Shared 0 i b 0 0 false false true) (HExec i b 0) [] p [] [] [] l).
Proof.
  intros B P. eapply go; [eapply step_host with (fail := false); cbn; rewrite andb_false_r; reflexivity|].
  apply at_wake0; auto.
Qed.
Lemma at_buf0 l i b p : b <> 0 -> parked 0 p ->
  arrives i b (Conf (Shared 0 i 0 0 0 false false true) (HBuf i b 0) [] p [] [] [] l).
Proof. intros B P. host. apply at_exec0; auto. Qed.
Lemma at_req l i b fi h p : b <> 0 -> parked 0 p -> h = HLoop i b \/ h = HSnap i b \/ h = HIdx i b 0 ->
  arrives i b (Conf (Shared 0 fi 0 0 0 false false true) h [] p [] [] [] l).
Proof. intros B P [-> |[-> | ->]]; [host; host|host|]; host; apply at_buf0; auto. Qed.
Lemma at_loaded fi h p l i b : b <> 0 -> parked 0 p -> called_ h i b ->
  arrives i b (Conf (Shared 0 fi 0 0 0 false false true) h [] p [] [] [] l).
Proof. intros B P [-> | ->]; [|host]; apply at_req; auto. Qed.
Lemma at_fin fi ex h p l i b : b <> 0 -> called_ h i b -> p = CFin1 \/ (p = CFin2 /\ ex = false) ->
  arrives i b (Conf (Shared 0 fi 0 0 0 ex false false) h [] p [] [] [] l).
Proof. intros B C [-> |[-> ->]]; [child|]; child; apply at_loaded; auto; left; reflexivity. Qed.

Definition loads (rest : list Z) : Prop := forall fi ex h l i b, b <> 0 -> called_ h i b -> no_invoke l ->
  arrives i b (Conf (Shared 0 fi 0 0 0 ex false false) h [] CUser [KLoad rest] [] [] l).
Lemma loads_nil : loads [].
Proof. intros fi ex h l i b B C N. child. eapply at_fin; eauto. Qed.

Section Next.
Variable rest : list Z.
Hypothesis IH : loads rest.
Variable k : Z.
Hypothesis known : In k ks.
Lemma more l e : no_invoke l -> (forall i b, e <> EInvoke i b) -> no_invoke (l ++ [e]).
Proof. intros N E. apply no_invoke_app. split; auto. intros i b [X|[]]. exact (E i b X). Qed.

Lemma at_res fi h l i b r p : b <> 0 -> called_ h i b -> no_invoke l ->
  p = CInv 1 \/ p = CIdx 1 \/ p = CBuf 1 fi \/ p = CNull 1 fi 0 \/ p = CDepth 1 \/ p = CRecv ->
  arrives i b (Conf (Shared 0 fi 0 0 0 true false false) h [] p [KCb k; KLoad rest] [] [r] l).
Proof.
  intros B C N P.
  assert (X6 : arrives i b (Conf (Shared 0 fi 0 0 0 true false false) h [] CRecv [KCb k; KLoad rest] [] [r] l))
    by (child; eapply IH; eauto; apply more; [auto|discriminate]).
  assert (X5 : arrives i b (Conf (Shared 0 fi 0 0 0 true false false) h [] (CDepth 1) [KCb k; KLoad rest] [] [r] l))
    by (child; auto).
  assert (X4 : arrives i b (Conf (Shared 0 fi 0 0 0 true false false) h [] (CNull 1 fi 0) [KCb k; KLoad rest] [] [r] l))
    by (child; auto).
  assert (X3 : arrives i b (Conf (Shared 0 fi 0 0 0 true false false) h [] (CBuf 1 fi) [KCb k; KLoad rest] [] [r] l))
    by (child; auto).
  assert (X2 : arrives i b (Conf (Shared 0 fi 0 0 0 true false false) h [] (CIdx 1) [KCb k; KLoad rest] [] [r] l))
    by (child; auto).
  assert (X1 : arrives i b (Conf (Shared 0 fi 0 0 0 true false false) h [] (CInv 1) [KCb k; KLoad rest] [] [r] l)).
  { eapply go; [eapply step_child with (fail := false); cbn; rewrite andb_false_r; reflexivity|auto]. }
  destruct P as [-> |[-> |[-> |[-> |[-> | ->]]]]]; auto.
Qed.
Lemma at_ans fi h l i b r p : b <> 0 -> called_ h i b -> no_invoke l -> parked 1 p ->
  arrives i b (Conf (Shared 0 fi 0 1 0 true false false) h [] p [KCb k; KLoad rest] [] [r] l).
Proof. intros B C N [-> | ->]; [child|]; child; eapply at_res; eauto. Qed.
Lemma at_dec fi l i b r p d ex h : b <> 0 -> no_invoke l -> parked 1 p ->
  (h = HLDec i b /\ d = 1 /\ ex = false) \/ (h = HLExec i b /\ d = 0 /\ ex = false)
    \/ (h = HLWake i b /\ d = 0 /\ ex = true) ->
  arrives i b (Conf (Shared d fi 0 0 0 ex false false) h [] p [KCb k; KLoad rest] [] [r] l).
Proof.
  intros B N P [(-> & -> & ->)|[(-> & -> & ->)|(-> & -> & ->)]]; [host; host| host |]; host;
    eapply (at_ans _ _ _ i b); eauto; left; reflexivity.
Qed.
Lemma at_handler fi l i b p : b <> 0 -> parked 1 p -> no_invoke l ->
  arrives i b (Conf (Shared 1 fi 0 0 0 false false false) HUser [FLoad i b k] p [KCb k; KLoad rest] [] []
             (l ++ [EHandle k])).
Proof.
  intros B P N. destruct (host_do (l ++ [EHandle k])) as [i' b'|r] eqn:D; [destruct (quiet l k i' b' known N D)|].
  eapply go; [eapply step_host with (fail := false); cbn; rewrite D; reflexivity|].
  eapply at_dec; eauto. apply more; [apply more; [auto|discriminate]|discriminate].
Qed.
Lemma at_handle fi l i b p : b <> 0 -> parked 1 p -> no_invoke l ->
  arrives i b (Conf (Shared 1 fi 0 0 0 false false false) (HLHandle i b) [] p [KCb k; KLoad rest] [k] [] l).
Proof. intros B P N. host. eapply at_handler; eauto. Qed.
Lemma at_asked fi h l i b p : b <> 0 -> called_ h i b \/ h = HLWait i b -> parked 1 p ->
  no_invoke l ->
  arrives i b (Conf (Shared 1 fi 0 0 1 false false false) h [] p [KCb k; KLoad rest] [k] [] l).
Proof.
  intros B C P N.
  assert (X : arrives i b (Conf (Shared 1 fi 0 0 1 false false false) (HLWait i b) [] p [KCb k; KLoad rest] [k] [] l))
    by (host; eapply at_handle; eauto).
  destruct C as [[-> | ->]| ->]; [host; host|host|]; auto.
Qed.
Lemma at_wake fi h l i b : b <> 0 -> called_ h i b \/ h = HLWait i b ->
  no_invoke l ->
  arrives i b (Conf (Shared 1 fi 0 0 0 false false false) h [] (CWake k 1) [KLoad rest] [k] [] l).
Proof. intros B C N. child. eapply at_asked; eauto. left; reflexivity. Qed.
Lemma at_exec fi ex h l i b : b <> 0 -> called_ h i b \/ h = HLWait i b ->
  no_invoke l ->
  arrives i b (Conf (Shared 1 fi 0 0 0 ex false false) h [] (CExec k 1) [KLoad rest] [k] [] l).
Proof. intros B C N. child. eapply at_wake; eauto. Qed.
Lemma at_inc fi ex h l i b : b <> 0 -> called_ h i b ->
  no_invoke l ->
  arrives i b (Conf (Shared 0 fi 0 0 0 ex false false) h [] (CInc k) [KLoad rest] [k] [] l).
Proof. intros B C N. child. eapply at_exec; eauto. Qed.
End Next.

Lemma loads_all : forall rest, incl rest ks -> loads rest.
Proof.
  induction rest as [|k rest IH]; intros I; [apply loads_nil|].
  assert (K : In k ks) by (apply I; left; reflexivity).
  assert (R : loads rest) by (apply IH; intros x X; apply I; right; exact X).
  intros fi ex h l i b B C N. child. eapply at_inc; eauto. apply more; [exact N|discriminate].
Qed.

Lemma ins_in i b m l : ins i b m l -> In (EReq i b) l.
Proof. intros (l1 & l2 & _ & ->). apply in_or_app. right. left. reflexivity. Qed.
Lemma all_arrive s : LInv ks s -> hpc s <> HUser -> quitting (hpc s) = false ->
  exists i b, In (EReq i b) (log s) /\ arrives i b s.
Proof.
  intros L U Q. pose proof (LInv_quiet child_do ks s L) as NI.
  assert (IN : forall (done : list (Z * Z)) rest, ks = map fst done ++ rest -> loads rest).
  { intros done rest E. apply loads_all. rewrite E. intros x X. apply in_or_app. auto. }
  assert (IK : forall (done : list (Z * Z)) k rest, ks = map fst done ++ k :: rest -> In k ks /\ loads rest).
  { intros done k rest E. split; [rewrite E; apply in_or_app; right; left; reflexivity|].
    apply loads_all. rewrite E. intros x X. apply in_or_app. right. right. exact X. }
  destruct L; cbn in U, Q, NI; try congruence.
  - destruct H0 as [[X _]|(i & b & B & C & J)]; [congruence|]. exists i, b. split; [eapply ins_in; eauto|]. eapply IN; eauto.
  - destruct (IK _ _ _ H) as [K R]. destruct H0 as [[X _]|(i & b & B & C & J)]; [congruence|].
    exists i, b. split; [eapply ins_in; eauto|]. eapply at_inc; eauto.
  - destruct (IK _ _ _ H) as [K R].
    destruct H0 as [[[X _]|(i & b & B & C & J)]|(i & b & B & -> & J)]; [congruence| |];
      (exists i, b; split; [eapply ins_in; eauto|]; eapply (at_exec rest R k K); eauto).
  - destruct (IK _ _ _ H) as [K R].
    destruct H0 as [[[X _]|(i & b & B & C & J)]|(i & b & B & -> & J)]; [congruence| |];
      (exists i, b; split; [eapply ins_in; eauto|]; eapply (at_wake rest R k K); eauto).
  - destruct (IK _ _ _ H) as [K R].
    destruct H0 as [[[X _]|(i & b & B & C & J)]|(i & b & B & -> & J)]; [congruence| |];
      (exists i, b; split; [eapply ins_in; eauto|]; eapply (at_asked rest R k K); eauto).
  - destruct (IK _ _ _ H) as [K R]. exists i, b; split; [eapply ins_in; eauto|]. eapply at_handle; eauto.
  - destruct (IK _ _ _ H) as [K R]. exists i, b; split; [eapply ins_in; eauto|]. eapply at_dec; eauto.
  - destruct (IK _ _ _ H) as [K R]. exists i, b; split; [eapply ins_in; eauto|]. eapply at_ans; eauto.
  - destruct (IK _ _ _ H) as [K R]. exists i, b; split; [eapply ins_in; eauto|]. eapply at_res; eauto.
  - destruct H0 as [[X _]|(i & b & B & C & J)]; [congruence|]. exists i, b; split; [eapply ins_in; eauto|]. eapply at_fin; eauto.
  - destruct H0 as [[X _]|(i & b & B & C & J)]; [congruence|]. exists i, b; split; [eapply ins_in; eauto|]. eapply at_loaded; eauto.
Qed.

(** Before the first function starts the sequential program has only issued its
    first request. *)
Lemma not_started c0 st ct l : load_start ks c0 -> seq host_do child_do c0 (st, ct, l) -> no_invoke l ->
  st = [] /\ (ct = InHost \/ exists i b, ct = Requested i b /\ In (EReq i b) l).
Proof.
  intros LS Sq. remember (st, ct, l) as c eqn:E. revert st ct l E. induction Sq as [|c c' Sq IH St]; intros st ct l E N.
  - destruct LS as (done & _ & [-> |(i & b & l' & -> & J)]); injection E as <- <- <-; auto.
    split; auto. right. exists i, b. split; auto. eapply ins_in; eauto.
  - subst c'. destruct c as [[st1 ct1] l1].
    assert (N1 : no_invoke l1).
    { inversion St; subst; apply no_invoke_app in N as [N _]; exact N. }
    destruct (IH _ _ _ eq_refl N1) as (-> & [-> |(i & b & -> & J)]); inversion St; subst; auto.
    + split; auto. right. exists i, b. split; auto. apply in_or_app. right. left. reflexivity.
    + apply no_invoke_app in N as [_ N]. destruct (N i b). left. reflexivity.
Qed.

(** C32. A call of a library that is still loading is not lost: once the host has
    made its first call, the execution can go on until the library is loaded and
    the called function starts, whatever callbacks loading makes. *)
Theorem first_call_starts s :
  rch (fresh ks) s -> hpc s <> HUser -> quitting (hpc s) = false -> no_invoke (log s) ->
  exists s' l i b, rch s s' /\ In (EReq i b) (log s) /\ loaded (sh s') = true /\ log s' = l ++ [EInvoke i b].
Proof.
  intros R U Q N.
  assert (X : exists i b, In (EReq i b) (log s) /\ arrives i b s).
  { destruct (All_reach _ _ _ nonnull ks quiet s R) as [L|(c0 & LS & HI)]; [apply all_arrive; auto|].
    destruct HI; cbn in U, Q, N; try congruence; try solve [exfalso; cases; subst; cbn in Q; discriminate];
      match goal with [ S : seq _ _ _ (_, _, _) |- _ ] =>
        destruct (not_started _ _ _ _ LS S N) as [E [E1|(i1 & b1 & E1 & J)]]; try discriminate end;
      try (injection E1 as <- <-; subst st; cbn in *; exists i, b; split; auto).
    - apply at_req; auto.
    - apply at_buf0; auto.
    - apply at_exec0; auto.
    - apply at_wake0; auto.
    - apply at_sent; auto.
    - apply at_pick; auto. }
  destruct X as (i & b & J & s' & l & R' & Lo & E). exists s', l, i, b. auto.
Qed.
End LoadProgress.

(** The demonstration host's first call, made while the library loads. *)
Example first_call_waiting :
  let s := exec true false demo_host demo_child (rounds 4) (fresh [3]) in
  loaded (sh s) = false /\ hpc s <> HUser /\ quitting (hpc s) = false /\
  exists s' l i b, reach true false demo_host demo_child s s' /\ In (EReq i b) (log s) /\
    loaded (sh s') = true /\ log s' = l ++ [EInvoke i b].
Proof.
  cbn zeta. split; [vm_compute; reflexivity|]. split; [vm_compute; discriminate|]. split; [vm_compute; reflexivity|].
  apply first_call_starts with (ks := [3]).
  - exact demo_nonnull.
  - intros l k i b _. apply demo_quiet.
  - apply exec_reach. constructor.
  - vm_compute. discriminate.
  - vm_compute. reflexivity.
  - vm_compute. intuition discriminate.
Qed.

Print Assumptions first_call_starts.
