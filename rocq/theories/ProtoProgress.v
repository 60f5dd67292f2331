(** Progress of the protocol: between two events only boundedly many steps other
    than polling happen, and the next event can always be reached. *)
From Coq Require Import List ZArith Bool Lia.
From Verif Require Import ProtoModel ProtoSpec ProtoProof ProtoLoad.
Import ListNotations.
Open Scope Z_scope.


Definition crank (p : cstate) : nat :=
  match p with
  | CInv _ => 22 | CIdx _ => 21 | CBuf _ _ => 20 | CNull _ _ _ => 19 | CDepth _ => 18 | CRecv => 11
  | CExec2 _ => 17 | CWake2 _ => 16 | CInc _ => 17 | CExec _ _ => 16 | CWake _ _ => 15 | _ => 10
  end.
Definition hrank (h : hstate) : nat :=
  match h with
  | HLoop _ _ => 60 | HSnap _ _ => 59 | HIdx _ _ _ => 58 | HBuf _ _ _ => 57 | HExec _ _ _ => 56
  | HWake _ _ _ => 55 | HDec _ _ _ => 54 | HExec2 _ _ _ => 53 | HWake2 _ _ _ => 52
  | HCheck _ _ _ => 3 | HHandle _ _ _ => 2
  | HQuit1 => 74 | HQuit2 => 73 | HQuit3 => 72 | HQuit4 => 71
  | _ => 0
  end.
Definition mes (s : conf) : nat :=
  match hpc s with
  | HWait _ _ _ | HPoll _ _ _ | HQuit5 =>
    if gone (cpc s) then 1
    else if pflag (sh s) =? 1 then 5
    else if cflag (sh s) =? 1 then 40
    else crank (cpc s)
  | h => hrank h + (if gone (cpc s) then 0 else 1)
  end.

Section Progress.
Variable debug spurious : bool.
Variable host_do : list event -> hact.
Variable child_do : list event -> cact.
Variable c0 : list open * control * list event.
Hypothesis nonnull : forall l i b, host_do l = HCall i b -> b <> 0.
Notation I := (Inv host_do child_do c0).
Notation stp := (step debug spurious host_do child_do).
Notation rch := (reach debug spurious host_do child_do).

Lemma mes_bound s : (mes s <= 75)%nat.
Proof.
  unfold mes. destruct (hpc s); cbn [hrank]; destruct (gone (cpc s)); try lia;
  destruct (_ =? _); try lia; destruct (_ =? _); try lia; destruct (cpc s); cbn; lia.
Qed.

Ltac three := first
  [ left; reflexivity
  | right; left; eexists; reflexivity
  | right; right; split; [reflexivity|cbn; lia] ].

Lemma step_kind s s' : I s -> stp s s' ->
  settle s = settle s' \/ (exists e, log s' = log s ++ [e]) \/ (log s' = log s /\ (mes s' < mes s)%nat).
Proof.
  intros HI H. destruct H as [fail s s' H|fail s s' H].
  - destruct HI.
    1: { norm H. destruct (host_do l) as [i b|r]; [injection H as <-; three|].
         inversion H0; subst; cbn [hf] in H; injection H as <-; three. }
    all: cases; norm H; try discriminate.
    all: try (injection H as <-; three).
    all: destruct fail; [|discriminate]; injection H as <-; three.
  - destruct HI; cases; norm H; try discriminate.
    all: try (destruct (child_do l); injection H as <-; three).
    all: try (destruct fail; [|discriminate]; injection H as <-; three).
    all: try (destruct (Z.eqb_spec b 0); [contradiction|]; injection H as <-; three).
    all: injection H as <-; three.
Qed.

Lemma reach_trans a b c : rch a b -> rch b c -> rch a c.
Proof. intros H1 H2. induction H2; auto. eapply reach_step; eauto. Qed.

Definition better (s s' : conf) : Prop :=
  (length (log s) < length (log s'))%nat \/ (log s' = log s /\ (mes s' < mes s)%nat).

Lemma one s s' : stp s s' -> better s s' -> exists s', rch s s' /\ better s s'.
Proof. intros. exists s'. split; auto. eapply reach_step; eauto. constructor. Qed.
Lemma two s s1 s' : stp s s1 -> stp s1 s' -> better s s' -> exists s', rch s s' /\ better s s'.
Proof.
  intros. exists s'. split; auto. eapply reach_step; eauto. eapply reach_step; eauto. constructor.
Qed.

Lemma better_log s s' e : log s' = log s ++ [e] -> better s s'.
Proof. intros E. left. rewrite E, app_length. cbn. lia. Qed.

Ltac comp :=
  cbn [host_step child_step sh hpc hstk cpc cstk reqs resps log depth findex mbuf cflag pflag executing
       should_exit loaded set_depth set_findex set_mbuf set_cflag set_pflag set_executing
       set_should_exit set_loaded wake wait Z.ltb Z.eqb Z.compare gone andb orb negb cf hf loading existsb];
  rewrite ?ltb_succ, ?eqb_succ, ?Z.ltb_irrefl, ?Z.eqb_refl, ?cf_not_loading, ?andb_false_r, ?orb_false_r;
  cbn [andb orb negb]; try reflexivity.
Ltac bet := first [eapply better_log; reflexivity | right; split; [reflexivity|cbn; lia]].
Ltac h1 := eapply one; [eapply step_host with (fail := true); comp|bet].
Ltac c1 := eapply one; [eapply step_child with (fail := true); comp|bet].
Ltac h2 := eapply two; [eapply step_host with (fail := true); comp
  |eapply step_host with (fail := true); comp|bet].
Ltac c2 := eapply two; [eapply step_child with (fail := true); comp
  |eapply step_child with (fail := true); comp|bet].

Lemma can_improve s : I s -> hpc s <> HEnd -> exists s', rch s s' /\ better s s'.
Proof.
  intros HI NE. destruct HI.
  1: { destruct (host_do l) as [i b|r] eqn:D.
       - eapply one; [eapply step_host with (fail := true); comp; rewrite D; reflexivity|bet].
       - inversion H; subst; (eapply one; [eapply step_host with (fail := true); comp; rewrite D; reflexivity|bet]). }
  all: cases; try (exfalso; apply NE; reflexivity).
  all: try (solve [h1 | c1 | h2 | c2]).
  all: try (eapply one; [eapply step_child with (fail := true); comp;
     match goal with [N : ?b <> 0 |- _] => rewrite (proj2 (Z.eqb_neq b 0) N) end; reflexivity|bet]).
  all: destruct (child_do l) eqn:D;
    (eapply one; [eapply step_child with (fail := true); comp; rewrite D; reflexivity|bet]).
Qed.

(** The next event can always be reached, or the library has been shut down. *)
Lemma progress s : I s -> hpc s <> HEnd ->
  exists s', rch s s' /\ ((length (log s) < length (log s'))%nat \/ hpc s' = HEnd).
Proof.
  remember (mes s) as n eqn:E. revert s E. induction n as [n IH] using lt_wf_ind. intros s -> HI NE.
  destruct (can_improve s HI NE) as [s1 [R1 [B|[B1 B2]]]]; [eauto|].
  assert (I1 : I s1) by (eapply Inv_reach; eauto).
  assert (D : hpc s1 = HEnd \/ hpc s1 <> HEnd) by (destruct (hpc s1); auto; right; discriminate).
  destruct D as [D|D]; [eauto|].
  destruct (IH _ B2 s1 eq_refl I1 D) as [s2 [R2 X]]. rewrite B1 in X. exists s2.
  split; auto. eapply reach_trans; eauto.
Qed.

Notation costs := (costs debug spurious host_do child_do).
Lemma settle_same s1 s2 : settle s1 = settle s2 -> mes s1 = mes s2 /\ log s1 = log s2.
Proof.
  destruct s1 as [sh1 h1 hs1 p1 cs1 rq1 rs1 l1], s2 as [sh2 h2 hs2 p2 cs2 rq2 rs2 l2].
  unfold settle. cbn. intros E. injection E as <- Eh <- Ep <- <- <- <-. split; auto.
  assert (G : gone p1 = gone p2 /\ crank p1 = crank p2).
  { destruct p1, p2; cbn in *; try discriminate; auto. }
  destruct G as [G1 G2]. unfold mes. cbn. rewrite G1, G2.
  destruct h1, h2; try discriminate; try (injection Eh as <- <- <-); reflexivity.
Qed.

Lemma costs_bound s n s' : I s -> costs s n s' ->
  I s' /\ (n + mes s' <= mes s + 76 * (length (log s') - length (log s)))%nat
  /\ (length (log s) <= length (log s'))%nat.
Proof.
  intros HI H. induction H as [|n s1 s2 H IH Hs E|n s1 s2 H IH Hs NE].
  - split; auto. lia.
  - destruct IH as [I1 [B C]]. split; [eapply Inv_step; eauto|].
    destruct (settle_same _ _ E) as [E1 E2]. rewrite <- E1, <- E2. auto.
  - destruct IH as [I1 [B C]]. split; [eapply Inv_step; eauto|].
    destruct (step_kind _ _ I1 Hs) as [K|[[e K]|[K1 K2]]]; [contradiction| |].
    + pose proof (mes_bound s2). rewrite K, app_length. cbn. lia.
    + rewrite K1. lia.
Qed.
End Progress.
