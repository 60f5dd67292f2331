(** C79: what a program sees of a sandbox that dies. *)
From Coq Require Import List ZArith Bool Lia.
From Verif Require Import ProtoModel ProtoSpec ProtoProof ProtoLoad ProtoProgress ProtoProps ProtoDeath.
From Verif Require Import FrameModel FrameSpec FrameProps LinkModel LinkSpec LinkProof LinkProps.
From Verif Require Import ThrowModel ThrowSpec ThrowProof ThrowProps XLinkModel XLinkSpec XLinkProof XLinkProps.
From Verif Require Import CrashModel CrashSpec.
Import ListNotations.
Open Scope Z_scope.

Definition with_cpc (c : cstate) (s : conf) : conf :=
  Conf (sh s) (hpc s) (hstk s) c (cstk s) (reqs s) (resps s) (log s).
(** The host is in a call: the calls of its stack and the current one. *)
Definition busy (h : hstate) : Z :=
  match h with
  | HUser | HQuit1 | HQuit2 | HQuit3 | HQuit4 | HQuit5 | HEnd | HThrew | HAborted => 0
  | _ => 1
  end.

Section Generic.
Variable debug spurious : bool.
Variable xh : list event -> xact.
Variable cd : list event -> cact.
Notation hstep := (xhost_step debug spurious xh).
Notation rch := (xreach debug spurious xh cd).

(** The host's step depends on the sandbox's state only where it asks whether it
    has exited. *)
Lemma blind fail s s' c : hstep fail s = Some s' -> gone c = false ->
  hstep fail (with_cpc c s) = Some (with_cpc c s') \/
  (exists i b d, hpc s = HPoll i b d) \/ hpc s = HQuit1 \/ hpc s = HQuit5.
Proof.
  unfold xhost_step, host_step, wait, wake, with_cpc. cbn [hpc log hstk sh reqs resps cpc cstk]. intros E G.
  destruct (hpc s) eqn:H; try (right; eauto; fail); left;
    repeat match type of E with context [match ?x with _ => _ end] => destruct x end;
    try discriminate; injection E as <-; reflexivity.
Qed.

Lemma host_log fail s s' : hstep fail s = Some s' -> cpc s' = cpc s /\
  (log s' = log s \/ exists e, log s' = log s ++ [e] /\
    match e with EInvoke _ _ | ECallback _ | EResume _ _ | EReturn _ _ => False | _ => True end).
Proof.
  unfold xhost_step, host_step, wait, wake. intros E.
  repeat match type of E with context [match ?x with _ => _ end] => destruct x end;
    try discriminate; injection E as <-; cbn [cpc log]; split; auto; right; eexists; split; reflexivity || exact Logic.I.
Qed.

Definition by_host (e : event) : Prop :=
  match e with EInvoke _ _ | ECallback _ | EResume _ _ | EReturn _ _ => False | _ => True end.

Definition view (s0 s : conf) : Prop :=
  rch s0 s \/
  gone (cpc s) = true /\
  ((exists c, gone c = false /\ rch s0 (with_cpc c s)) \/
   (hpc s = HEnd /\ exists s', rch s0 s' /\ log s' = log s) \/
   (exists s' i b d l, rch s0 s' /\ hpc s' = HPoll i b d /\ log s = log s' ++ EThrow :: l /\ Forall by_host l)).

Lemma crash_view s0 s : crashes debug spurious xh cd s0 s -> view s0 s.
Proof.
  induction 1 as [|s s' C IH X|s C IH G].
  - left. constructor.
  - destruct IH as [IH|(G & IH)]; [left; eapply xreach_step; eauto|]. right.
    destruct X as [fail s s' X|fail s s' X]; [|rewrite gone_child in X by exact G; discriminate].
    destruct (host_log _ _ _ X) as [Ec El]. split; [congruence|].
    destruct IH as [(c & Gc & R)|[(H & s1 & R & L)|(s1 & i & b & d & l & R & H & L & F)]].
    + destruct (blind _ _ _ c X Gc) as [X'|B].
      * left. exists c. split; [exact Gc|]. eapply xreach_step; [exact R|]. eapply xstep_host. exact X'.
      * right. unfold xhost_step, host_step in X. destruct B as [(i & b & d & H)|[H|H]]; rewrite H, G in X; injection X as <-.
        -- right. exists (with_cpc c s), i, b, d, []. split; [exact R|]. split; [exact H|]. split; [reflexivity|constructor].
        -- left. split; [reflexivity|]. exists (with_cpc c s). split; [exact R|reflexivity].
        -- left. split; [reflexivity|]. exists (with_cpc c s). split; [exact R|reflexivity].
    + unfold xhost_step, host_step in X. rewrite H in X. discriminate.
    + right. right. destruct El as [El|(e & El & O)].
      * exists s1, i, b, d, l. rewrite El. auto.
      * exists s1, i, b, d, (l ++ [e]). rewrite El, L, <- app_assoc. repeat split; auto. apply Forall_app; auto.
  - destruct IH as [IH|(G' & _)]; [|congruence]. right. split; [reflexivity|]. left.
    exists (cpc s). split; [exact G|]. destruct s; exact IH.
Qed.
End Generic.

Section Claims.
Variable xcode : list obs -> xcmd.
Variable fcode : list obs -> fcmd.
Variable sig : Z -> layout.
Variable place : world -> Z -> Z.
Variable other : world -> memory.
Variable ks : list Z.
Variable debug : bool.

Notation replay := (xreplay xcode fcode sig other).
Notation xh := (xhost_do xcode fcode sig place other).
Notation cd := (xchild_do xcode fcode sig other).
Notation rch := (xreach debug false xh cd).
Notation direct := (xdirect xcode fcode ks).

Lemma inside_snoc t o : inside (t ++ [o]) = enter (inside t) o.
Proof. unfold inside. rewrite fold_left_app. reflexivity. Qed.

(** The calls in progress are those of the host's stack. *)
Definition stacked (s : conf) : Prop :=
  match hpc s with
  | HAborted => True
  | HThrew => inside (seen (replay (log s))) = 0
  | h => inside (seen (replay (log s))) = busy h + Z.of_nat (length (hstk s))
  end.
Lemma snoc l e : replay (l ++ [e]) = effect (commands xcode) fcode sig (meanwhile other (replay l)) e.
Proof. apply xsnoc. Qed.
Lemma inside_stack s : rch (fresh ks) s -> stacked s.
Proof.
  induction 1 as [|s s' R IH X]; [reflexivity|].
  destruct X as [fail s s' X|fail s s' X].
  - unfold stacked in *.
    unfold xhost_step, host_step, wait, wake, plain, xhost_do in X.
    destruct (hpc s) eqn:H; cbn [busy] in IH.
    all: repeat match type of X with context [match ?x with _ => _ end] => destruct x eqn:? end;
      try discriminate; injection X as <-; cbn [hpc hstk log busy length];
      rewrite ?snoc; cbn [effect meanwhile note seen]; unfold commands;
      repeat match goal with E : xcode _ = _ |- _ => rewrite E end; cbn [seen];
      rewrite ?inside_snoc; cbn [enter]; try exact Logic.I; try lia.
    all: repeat match goal with E : hstk ?z = _ |- _ => rewrite E in *; clear E end; cbn [length] in *; try lia.
    + destruct (xcode (seen (replay (log s)))) as [[]|]; try discriminate. cbn [seen]. rewrite inside_snoc. cbn [enter]. lia.
    + exfalso. match goal with E : match xcode ?t with _ => _ end = XThrow true |- _ => destruct (xcode t) as [[]|]; discriminate end.
  - unfold stacked in *. unfold child_step, wait, wake in X.
    assert (Q : hpc s' = hpc s /\ hstk s' = hstk s /\ inside (seen (replay (log s'))) = inside (seen (replay (log s)))).
    { repeat match type of X with context [match ?x with _ => _ end] => destruct x eqn:? end;
        try discriminate; injection X as <-; cbn [hpc hstk log]; repeat split;
        rewrite ?snoc; cbn [effect meanwhile note seen]; try reflexivity; rewrite ?inside_snoc; try reflexivity.
      destruct (fcode _); cbn [seen]; [reflexivity|]. rewrite inside_snoc. reflexivity. }
    destruct Q as (-> & -> & ->). exact IH.
Qed.

Lemma by_host_program l0 l : Forall by_host l -> exists c, seen (replay (l0 ++ l)) = seen (replay l0) ++ c /\ Forall of_program c.
Proof.
  induction l as [|e l IH] using rev_ind; intros F.
  - exists []. rewrite !app_nil_r. auto.
  - apply Forall_app in F as [F E]. inversion E as [|? ? E1 _]; subst. destruct (IH F) as (c & Ec & Fc).
    rewrite app_assoc, snoc. cbn [effect meanwhile note seen] in *.
    assert (A : forall o, of_program o -> exists c', seen (replay (l0 ++ l)) ++ [o] = seen (replay l0) ++ c' /\ Forall of_program c').
    { intros o O. exists (c ++ [o]). rewrite Ec, app_assoc. split; [reflexivity|]. apply Forall_app. auto. }
    destruct e; cbn [effect note seen] in *; try destruct E1; try (apply A; exact Logic.I).
    destruct (commands _ _); cbn [seen]; [apply A; exact Logic.I|]. exists c. auto.
Qed.

Hypothesis layouts : proper sig.
Hypothesis fresh_frames : allocates sig place.
Hypothesis calm_frames : calm sig other.
Hypothesis types : xtyped xcode fcode ks sig.
Hypothesis quiet_load : forall t k, In k ks -> (forall i a, ~ In (OStart i a) t) ->
  exists r, xcode (t ++ [OHandle k]) = Do (Give r).

(** C79. Whenever the sandbox dies, what the two sides did and saw is what they would
    have done and seen had the library been linked into the program, up to the
    exception that tells the program, if it has come.  That exception leaves a call
    that was made and had not returned, comes only when the process is gone, and
    afterwards the library does nothing. *)
Theorem crash_history s : crashes debug false xh cd (fresh ks) s ->
  exists a b, seen (replay (log s)) = a ++ b /\
  (not_begun a \/
   exists st u, direct st u /\ (a = u \/ (exists o, u = a ++ [o]) \/ (a = u ++ [OQuit] /\ st = []))) /\
  (b = [] \/
   gone (cpc s) = true /\ 0 < inside a /\ exists c, b = OThrow :: c /\ Forall of_program c).
Proof.
  intros C. apply crash_view in C.
  assert (L : forall s', rch (fresh ks) s' -> log s' = log s ->
    exists a b, seen (replay (log s)) = a ++ b /\
    (not_begun a \/ exists st u, direct st u /\ (a = u \/ (exists o, u = a ++ [o]) \/ (a = u ++ [OQuit] /\ st = []))) /\
    (b = [] \/ gone (cpc s) = true /\ 0 < inside a /\ exists c, b = OThrow :: c /\ Forall of_program c)).
  { intros s' R E. exists (seen (replay (log s))), []. rewrite app_nil_r. split; [reflexivity|]. split; [|auto].
    rewrite <- E. eapply throwing_linked_history; eauto. }
  destruct C as [R|(G & [(c & _ & R)|[(_ & s1 & R & E)|(s1 & i & b & d & l & R & H & E & F)]])].
  - eapply L; eauto.
  - eapply L; [exact R|reflexivity].
  - eapply L; eauto.
  - destruct (by_host_program (log s1 ++ [EThrow]) l F) as (c & Ec & Fc).
    exists (seen (replay (log s1))), (OThrow :: c). split.
    { rewrite E. change (EThrow :: l) with ([EThrow] ++ l). rewrite app_assoc, Ec, snoc.
      cbn [effect meanwhile note seen]. rewrite <- app_assoc. reflexivity. }
    split; [eapply throwing_linked_history; eauto|]. right. split; [exact G|]. split; [|eauto].
    pose proof (inside_stack _ R) as I. unfold stacked in I. rewrite H in I. cbn [busy] in I. lia.
Qed.

Lemma inside_begun st t : direct st t -> st <> [] -> begun t.
Proof.
  induction 1; intros N; try congruence; try (apply begun_app; apply IHxdirect; discriminate).
  - exists i, args. rewrite app_comm_cons, app_assoc. apply in_or_app. right. left. reflexivity.
  - exists i, args. apply in_or_app. right. right. left. reflexivity.
Qed.
Lemma no_half st st' t o : direct st t -> begun t -> direct st' (t ++ [o]) -> o = OThrow.
Proof.
  intros D B D'. pose proof (xdirect_settled xcode fcode sig ks types quiet_load _ _ D B) as St.
  destruct (xlast_step xcode fcode sig ks types quiet_load _ _ _ D' B St) as (v & x & st1 & E & _ & X); [discriminate|].
  inversion X; subst; destruct v as [|? [|? v]]; cbn in E; try discriminate; injection E; auto.
Qed.

Lemma in_library c0 st ct l i st' : load_start ks c0 -> xseq xh cd c0 (st, ct, l) ->
  xall xcode fcode sig place other l -> direct (Fn i :: st') (seen (replay l)) -> ct = InSandbox.
Proof.
  intros LS Q A D. assert (B : begun (seen (replay l))) by (eapply inside_begun; [exact D|discriminate]).
  destruct c0 as [[st0 ct0] l0]. assert (Ex : exists x, l = l0 ++ x) by (eapply xseq_prefix; exact Q). destruct Ex as (x & Ex).
  assert (X : xrel xcode fcode sig other ks st ct l).
  { eapply xrel_seq; eauto. eapply xrel_start; eauto. subst l. eapply xall_app. exact A. }
  destruct X as (lk & _ & _ & T & _). destruct ct; cbn [xtold] in T.
  - exfalso. destruct T as [D' H]. rewrite (xsame_stack _ _ _ _ _ _ D' D) in H. exact H.
  - reflexivity.
  - exfalso. destruct T as (args & D' & _). pose proof (no_half _ _ _ _ D B D'). discriminate.
  - exfalso. destruct T as (args & D' & _). pose proof (no_half _ _ _ _ D B D'). discriminate.
  - exfalso. pose proof (no_half _ _ _ _ D B T). discriminate.
  - exfalso. destruct T as (D' & _). pose proof (no_half _ _ _ _ D B D'). discriminate.
Qed.

(** The library's code runs while the program waits in the call. *)
Lemma library_runs s i st : rch (fresh ks) s -> direct (Fn i :: st) (seen (replay (log s))) ->
  gone (cpc s) = false /\ pflag (sh s) = 0 /\ exists j b d, hpc s = HWait j b d \/ hpc s = HPoll j b d.
Proof.
  intros R D. assert (B : begun (seen (replay (log s)))) by (eapply inside_begun; [exact D|discriminate]).
  pose proof (xnonnull xcode fcode sig place other fresh_frames) as NN.
  pose proof (xnocatch xcode fcode sig place other) as NC.
  pose proof (xquiet xcode fcode sig place other ks quiet_load) as QQ.
  pose proof (xreach_decided _ _ _ _ _ _ _ _ R : xall xcode fcode sig place other (log s)) as A.
  assert (NQ : ~ In OQuit (seen (replay (log s)))) by (eapply xdirect_no_quit; exact D).
  destruct (XAll_reach debug xh cd NN NC ks QQ s R) as [L|(c0 & LS & HI)].
  - exfalso. apply (LInv_quiet cd ks) in L. destruct B as (i' & a & X). apply starts_in in X as (i1 & b1 & X). exact (L _ _ X).
  - clear R. destruct HI; cbn [log sh cpc hpc gone pflag] in *;
      try match goal with Q : ThrowProof.Q _ _ _ _ _ _ |- _ =>
        destruct Q as [Q _]; pose proof (in_library _ _ _ _ _ _ LS Q A D); discriminate end.
    all: try (exfalso; apply NQ; rewrite snoc; cbn [effect meanwhile note seen]; apply in_or_app; right; left; reflexivity).
    split; [reflexivity|]. split; [reflexivity|]. unfold waiting in *. eauto.
Qed.

(** C79. If the sandbox dies while the library's code runs, the next thing to happen
    is that the program's call throws; and that can always happen. *)
Theorem crash_told s i st : rch (fresh ks) s ->
  let t := seen (replay (log s)) in
  direct (Fn i :: st) t ->
  forall s', rch (child_dies s) s' ->
    (seen (replay (log s')) = t /\ exists s'', rch s' s'' /\ seen (replay (log s'')) = t ++ [OThrow]) \/
    exists c, seen (replay (log s')) = t ++ OThrow :: c /\ Forall of_program c.
Proof.
  intros R t D s' R'. destruct (library_runs _ _ _ R D) as (_ & P & j & b & d & H).
  assert (I : gone (cpc s') = true /\
    ((log s' = log s /\ pflag (sh s') = 0 /\ (hpc s' = HWait j b d \/ hpc s' = HPoll j b d)) \/
     exists l, log s' = log s ++ EThrow :: l /\ Forall by_host l)).
  { clear D R. induction R' as [|s1 s2 R1 IH X].
    - split; [reflexivity|]. left. auto.
    - destruct IH as (G & IH).
      destruct X as [fail s1 s2 X|fail s1 s2 X]; [|rewrite gone_child in X by exact G; discriminate].
      destruct (host_log _ _ _ _ _ _ X) as [Ec El]. split; [congruence|].
      destruct IH as [(L & P1 & H1)|(l & L & F)].
      + unfold xhost_step, host_step, wait in X. destruct H1 as [H1|H1]; rewrite H1 in X.
        * rewrite P1 in X. cbn in X. destruct fail; [|discriminate]. injection X as <-. left. cbn. auto.
        * rewrite G in X. injection X as <-. right. exists []. cbn [log]. rewrite L. auto.
      + right. destruct El as [El|(e & El & O)].
        * exists l. rewrite El. auto.
        * exists (l ++ [e]). rewrite El, L, <- app_assoc. split; [reflexivity|]. apply Forall_app; auto. }
  destruct I as (G & [(L & P1 & H1)|(l & L & F)]).
  - left. rewrite L. split; [reflexivity|].
    assert (Y : exists s2, rch s' s2 /\ log s2 = log s' /\ hpc s2 = HPoll j b d /\ gone (cpc s2) = true).
    { destruct H1 as [H1|H1]; [|exists s'; repeat split; auto; constructor].
      eexists. split; [eapply xreach_step; [constructor|]; apply xstep_host with (fail := true);
        unfold xhost_step, host_step, wait; rewrite H1, P1; reflexivity|]. auto. }
    destruct Y as (s2 & R2 & L2 & H2 & G2).
    eexists. split; [eapply xreach_step; [exact R2|]; apply xstep_host with (fail := true);
      unfold xhost_step, host_step; rewrite H2, G2; reflexivity|].
    cbn [log]. rewrite L2, L, snoc. reflexivity.
  - right. destruct (by_host_program (log s ++ [EThrow]) l F) as (c & Ec & Fc). exists c. split; [|exact Fc].
    rewrite L. change (EThrow :: l) with ([EThrow] ++ l). rewrite app_assoc, Ec, snoc.
    cbn [effect meanwhile note seen]. rewrite <- app_assoc. reflexivity.
Qed.
End Claims.

Lemma crashes_reach debug spurious xh cd s0 s s' : crashes debug spurious xh cd s0 s ->
  xreach debug spurious xh cd s s' -> crashes debug spurious xh cd s0 s'.
Proof. intros C. induction 1; [exact C|]. eapply crashes_step; eauto. Qed.
Lemma reach_crashes debug spurious xh cd s0 s : xreach debug spurious xh cd s0 s -> crashes debug spurious xh cd s0 s.
Proof. apply crashes_reach. constructor. Qed.

(** The hypotheses of crash_history can be met: two calls deep, the outer one inside
    a handler, the sandbox dies in function 2 of the program of C77. *)
Definition demo_crash : conf :=
  xexec true wild_xh wild_cd (turns 100) (child_dies (xexec true wild_xh wild_cd (turns 50) (fresh [3]))).
Example crash_seen :
  crashes true false wild_xh wild_cd (fresh [3]) demo_crash /\
  seen (wild_replay (log demo_crash)) =
    [OCall 1 [[20]; [22]]; OCallback 3; OHandle 3; OHandled 3 5; OResume 3 5;
     OStart 1 [[20]; [22]]; OCallback 42; OHandle 42; OCall 2 [[1; 2; 3]]] ++ [OThrow; OCall 2 [[7; 8; 9]]] /\
  inside (firstn 9 (seen (wild_replay (log demo_crash)))) = 2.
Proof.
  split; [|vm_compute; split; reflexivity].
  eapply crashes_reach; [|apply xexec_reach; constructor]. apply crashes_dies; [|vm_compute; reflexivity].
  apply reach_crashes, xexec_reach. constructor.
Qed.
(** ... and of crash_told: function 1 of that program runs. *)
Example crash_told_applies :
  let s := xexec true wild_xh wild_cd (turns 31) (fresh [3]) in
  xreach true false wild_xh wild_cd (fresh [3]) s /\
  xdirect wild_h wild_f [3] [Fn 1] (seen (wild_replay (log s))).
Proof.
  cbn zeta. split; [apply xexec_reach; constructor|].
  replace (seen (wild_replay (log (xexec true wild_xh wild_cd (turns 31) (fresh [3]))))) with
    [OCall 1 [[20]; [22]]; OCallback 3; OHandle 3; OHandled 3 5; OResume 3 5; OStart 1 [[20]; [22]]] by (vm_compute; reflexivity).
  apply (x_first wild_h wild_f [3] [(3, 5)] [] [OCallback 3; OHandle 3; OHandled 3 5; OResume 3 5] 1 [[20]; [22]]); try reflexivity.
  intros p k r q H. cbn [app] in H.
  repeat (destruct p as [|x p]; [discriminate H || (injection H as <- <- <-; reflexivity)|]; injection H as <- H).
  destruct p; discriminate.
Qed.
Print Assumptions crash_history.
Print Assumptions crash_told.
