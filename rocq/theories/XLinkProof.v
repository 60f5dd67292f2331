(** Proofs for C77: LinkProof.v with exceptions. *)
From Coq Require Import List ZArith Bool Lia.
From Verif Require Import ProtoModel ProtoSpec ProtoProof ProtoLoad ProtoProgress ProtoProps ProtoLoadProgress.
From Verif Require Import FrameModel FrameSpec FrameProps LinkModel LinkSpec LinkProof LinkProps.
From Verif Require Import ThrowModel ThrowSpec ThrowProof ThrowProps XLinkModel XLinkSpec.
Import ListNotations.
Open Scope Z_scope.

Lemma host_step_ext debug sp f g fail s : (forall l, f l = g l) -> host_step debug sp f fail s = host_step debug sp g fail s.
Proof. intros E. unfold host_step. rewrite !E. reflexivity. Qed.
Lemma seq_step_ext f g cd c c' : (forall l, f l = g l) -> seq_step f cd c c' -> seq_step g cd c c'.
Proof. intros E H. destruct H; constructor; rewrite <- ?E; assumption. Qed.

Section XLink.
Variable xcode : list obs -> xcmd.
Variable fcode : list obs -> fcmd.
Variable sig : Z -> layout.
Variable place : world -> Z -> Z.
Variable other : world -> memory.
Variable ks : list Z.
Hypothesis layouts : proper sig.
Hypothesis fresh_frames : allocates sig place.
Hypothesis calm_frames : calm sig other.
Hypothesis types : xtyped xcode fcode ks sig.
Hypothesis quiet_load : forall t k, In k ks -> (forall i a, ~ In (OStart i a) t) ->
  exists r, xcode (t ++ [OHandle k]) = Do (Give r).

Notation hcode := (commands xcode).
Notation replay := (xreplay xcode fcode sig other).
Notation effect := (effect hcode fcode sig).
Notation meanwhile := (meanwhile other).
Notation xh := (xhost_do xcode fcode sig place other).
Notation hd := (host_do hcode fcode sig place other).
Notation cd := (xchild_do xcode fcode sig other).
Notation direct := (xdirect xcode fcode ks).

Lemma xsnoc l e : replay (l ++ [e]) = effect (meanwhile (replay l)) e.
Proof. apply replay_snoc. Qed.
Lemma plain_hd l : ThrowModel.plain xh l = hd l.
Proof.
  unfold ThrowModel.plain, xhost_do, host_do. change (LinkModel.replay hcode fcode sig other l) with (replay l).
  cbn zeta. unfold commands at 1. destruct (xcode (seen (replay l))) as [[i a|r]|]; reflexivity.
Qed.
Lemma xdo l a : xh l = XDo a -> (exists i args, a = HCall i (place (replay l) i) /\ xcode (seen (replay l)) = Do (Call i args))
  \/ exists r, a = HReturn r /\ xcode (seen (replay l)) = Do (Give r).
Proof.
  unfold xhost_do. destruct (xcode (seen (replay l))) as [[i args|r]|]; intros E; [|  |discriminate]; injection E as <-; eauto.
Qed.

Lemma xnonnull l i b : xh l = XDo (HCall i b) -> b <> 0.
Proof.
  intros E. apply xdo in E as [(i' & a & E & _)|(r & E & _)]; [|discriminate]. injection E as _ ->. apply fresh_frames.
Qed.
Lemma xnocatch l : xh l <> XThrow true.
Proof. unfold xhost_do. destruct (xcode _) as [[i a|r]|]; discriminate. Qed.
Lemma xquiet l k : In k ks -> no_invoke l -> exists r, xh (l ++ [EHandle k]) = XDo (HReturn r).
Proof.
  intros K N. unfold xhost_do. rewrite xsnoc. cbn [LinkModel.effect LinkModel.meanwhile note seen].
  destruct (quiet_load (seen (replay l)) k K) as (r & ->).
  - intros i a X. apply starts_in in X as (i1 & b1 & X). exact (N _ _ X).
  - exists r. reflexivity.
Qed.

Notation running := running.
Notation all_frames := all_frames.
Notation spread := (spread sig).
Notation plain := LinkProof.plain.

Definition xtold (st : list open) (ct : control) (w : world) : Prop :=
  match ct with
  | InHost => direct (plain st) (seen w) /\ hosts_turn (plain st)
  | InSandbox => direct (plain st) (seen w) /\ ~ hosts_turn (plain st)
  | Requested i b => exists args, direct (Fn i :: plain st) (seen w ++ [OStart i args]) /\
      hosts_turn (plain st) /\ read_args (mem w) b (sig i) = args
  | Returned i b => exists v, direct (plain st) (seen w ++ [ODone i v]) /\ hosts_turn (plain st) /\
      bytes_at (mem w) (b + fst (l_ret (sig i))) (snd (l_ret (sig i))) = v
  | Asked k => direct (Handling k :: plain st) (seen w ++ [OHandle k])
  | Answered k r => direct (plain st) (seen w ++ [OResume k r]) /\ ~ hosts_turn (plain st)
  end.
(** Frames that were allocated when an exception was thrown. *)
Definition leaked (l : list event) (lk : list frame) : Prop :=
  forall l1 l2, l = l1 ++ EThrow :: l2 -> incl (frames (replay l1)) lk.
Definition xrel (st : list open) (ct : control) (l : list event) : Prop :=
  let w := replay l in
  exists lk, frames w = all_frames st ct ++ lk /\ spread (frames w) /\ xtold st ct w /\ leaked l lk.

Lemma leaked_snoc l lk e : leaked l lk -> e <> EThrow -> leaked (l ++ [e]) lk.
Proof.
  intros L N l1 l2 E. destruct (snoc_inv l2) as [-> |(y & z & ->)].
  - apply app_inj_tail in E as [_ E]. contradiction.
  - rewrite app_comm_cons, app_assoc in E. apply app_inj_tail in E as [-> _]. eapply L. reflexivity.
Qed.

Lemma xdirect_alt st t : direct st t -> alt st.
Proof.
  induction 1; try (constructor; auto; fail).
  - repeat constructor.
  - inversion IHxdirect; auto.
  - inversion IHxdirect; auto.
Qed.
Lemma commands_call t i args : xcode t = Do (Call i args) -> hcode t = Call i args.
Proof. unfold commands. intros ->. reflexivity. Qed.

Lemma xrel_step st ct l st' ct' l' : xrel st ct l ->
  xseq_step xh cd (st, ct, l) (st', ct', l') -> xrel st' ct' l'.
Proof.
  intros (lk & F & S & T & K) Q. unfold xrel in *. inversion Q as [st0 ct0 l0 c' XD Q' Ea Eb|k st0 l0 XT]; subst.
  2: { (* throw *)
    rewrite xsnoc. cbn [LinkModel.effect LinkModel.meanwhile note frames seen]. destruct T as [D _].
    exists (running (OHandler k :: st0) ++ lk). cbn [all_frames] in *. split; [rewrite F; reflexivity|]. split; [exact S|]. split.
    - split; [|exact Logic.I]. cbn [plain map]. eapply XLinkSpec.x_throw; [exact D|].
      unfold xhost_do in XT. cbn zeta in XT. destruct (xcode (seen (replay l))) as [[i a|r]|] eqn:Ex; [discriminate|discriminate|exact Ex].
    - intros l1 l2 E. destruct (snoc_inv l2) as [-> |(y & z & ->)].
      + apply app_inj_tail in E as [<- _]. rewrite F. apply incl_refl.
      + rewrite app_comm_cons, app_assoc in E. apply app_inj_tail in E as [-> _].
        eapply incl_tran; [eapply K; reflexivity|]. apply incl_appr, incl_refl. }
  apply (seq_step_ext _ hd cd) in Q'; [|apply plain_hd].
  inversion Q'; subst; rewrite xsnoc; set (w := replay l) in *; exists lk.
  - (* call *)
    destruct (XD eq_refl) as (a & Xa). pose proof (plain_hd l) as Pl. unfold ThrowModel.plain in Pl. rewrite Xa, H0 in Pl. subst a.
    apply xdo in Xa as [(i' & args & E0 & E)|(r & E0 & _)]; [|discriminate]. injection E0 as <- ->. fold w in E.
    change (replay l) with w. rewrite (seen_req hcode fcode sig other w i _ args (commands_call _ _ _ E)).
    destruct T as [D Hh]. cbn [frames mem seen xtold].
    split; [cbn [all_frames] in *; rewrite F; reflexivity|]. split; [eapply place_spread; eauto|].
    split; [|apply leaked_snoc; [exact K|discriminate]].
    exists args. split; [|split; [exact Hh|]].
    + rewrite <- app_assoc. apply x_call; auto.
    + apply stored_args; [exact layouts|]. apply (proj1 types _ _ _ E).
  - (* invoke *)
    destruct T as (args & D & Hh & R). cbn [LinkModel.effect LinkModel.meanwhile mem frames seen xtold].
    rewrite F in *. cbn [all_frames app] in *. rewrite (mark_head sig layouts i b PSent PRunning) by exact S.
    split; [reflexivity|]. split; [eapply spread_phase; eauto|]. split; [|apply leaked_snoc; [exact K|discriminate]].
    rewrite (read_args_ext sig layouts _ (mem w)).
    + rewrite R. split; [exact D|]. cbn. auto.
    + intros x X. eapply calm_frames; [rewrite F; left; reflexivity|discriminate|exact X].
  - (* callback *)
    unfold xchild_do, child_do in H0. change (LinkModel.replay hcode fcode sig other l) with w in H0.
    destruct (fcode (seen w)) as [k'|v] eqn:E; [|discriminate].
    injection H0 as ->. destruct T as [D _]. cbn [LinkModel.effect LinkModel.meanwhile note mem frames seen xtold].
    split; [exact F|]. split; [exact S|]. split; [|apply leaked_snoc; [exact K|discriminate]].
    rewrite <- app_assoc. cbn [plain map] in *. apply x_callback; auto.
  - (* handle *)
    cbn [LinkModel.effect LinkModel.meanwhile note mem frames seen xtold] in *.
    split; [exact F|]. split; [exact S|]. split; [|apply leaked_snoc; [exact K|discriminate]]. split; [exact T|cbn; auto].
  - (* handled *)
    destruct (XD eq_refl) as (a & Xa). pose proof (plain_hd l) as Pl. unfold ThrowModel.plain in Pl. rewrite Xa, H0 in Pl. subst a.
    apply xdo in Xa as [(i' & args & E0 & _)|(r' & E0 & E)]; [discriminate|]. injection E0 as <-. fold w in E.
    destruct T as [D _]. cbn [LinkModel.effect LinkModel.meanwhile note mem frames seen xtold].
    split; [exact F|]. split; [exact S|]. split; [|apply leaked_snoc; [exact K|discriminate]]. rewrite <- app_assoc.
    change (plain (OHandler k :: st')) with (Handling k :: plain st') in D.
    split; [eapply x_answer; eauto|]. apply xdirect_alt in D. inversion D as [| |k0 i0 s0 D' E0]. cbn. auto.
  - (* resume *)
    destruct T as [D N]. cbn [LinkModel.effect LinkModel.meanwhile note mem frames seen xtold] in *.
    split; [exact F|]. split; [exact S|]. split; [|apply leaked_snoc; [exact K|discriminate]]. split; assumption.
  - (* return *)
    unfold xchild_do, child_do in H0. change (LinkModel.replay hcode fcode sig other l) with w in H0.
    destruct (fcode (seen w)) as [k'|v] eqn:E; [discriminate|].
    destruct T as [D _]. cbn [LinkModel.effect LinkModel.meanwhile mem frames seen xtold]. rewrite E. cbn [frames mem seen].
    rewrite F in *. cbn [all_frames LinkProof.running flat_map app] in *.
    rewrite (mark_head sig layouts i b PRunning PFinished) by exact S.
    split; [reflexivity|]. split; [eapply spread_phase; eauto|]. split; [|apply leaked_snoc; [exact K|discriminate]].
    change (plain (OFn i b :: st')) with (Fn i :: plain st') in D. exists v. rewrite <- app_assoc. split; [eapply x_return; eauto|].
    split; [apply xdirect_alt in D; inversion D; auto|].
    rewrite <- (proj2 types _ _ _ _ D E). apply put_at.
  - (* done *)
    destruct T as (v & D & Hh & R). cbn [LinkModel.effect LinkModel.meanwhile mem frames seen xtold].
    rewrite F in *. cbn [all_frames app] in *. rewrite (release_head sig layouts i b PFinished) by exact S.
    split; [reflexivity|]. split; [inversion S; auto|]. split; [|apply leaked_snoc; [exact K|discriminate]].
    rewrite (read_ret_ext sig layouts _ (mem w)).
    + rewrite R. split; assumption.
    + intros x X. eapply calm_frames; [rewrite F; left; reflexivity|discriminate|exact X].
Qed.

Lemma xrel_seq st0 ct0 l0 st ct l : xrel st0 ct0 l0 -> xseq xh cd (st0, ct0, l0) (st, ct, l) -> xrel st ct l.
Proof.
  intros R Q. remember (st0, ct0, l0) as a eqn:Ea. remember (st, ct, l) as c eqn:Ec. revert st ct l Ec.
  induction Q as [|c c' Q IH St]; intros st ct l Ec.
  - subst. injection Ec as -> -> ->. exact R.
  - subst. destruct c as [[st1 ct1] l1]. eapply xrel_step; [apply IH; reflexivity|exact St].
Qed.
Lemma xseq_prefix st0 ct0 l0 st ct l : xseq xh cd (st0, ct0, l0) (st, ct, l) -> exists x, l = l0 ++ x.
Proof.
  intros Q. remember (st0, ct0, l0) as a eqn:Ea. remember (st, ct, l) as c eqn:Ec. revert st ct l Ec.
  induction Q as [|c c' Q IH St]; intros st ct l Ec.
  - subst. injection Ec as -> -> ->. exists []. rewrite app_nil_r. reflexivity.
  - subst. destruct c as [[st1 ct1] l1]. destruct (IH _ _ _ eq_refl) as (x & ->).
    inversion St as [st2 ct2 l2 c2 _ Q2|]; subst; [inversion Q2; subst|]; rewrite <- app_assoc; eauto.
Qed.

(** ** The user's code decides *)
Variable debug : bool.
Notation reaches := (xreach debug false xh cd (fresh ks)).
Notation decided := (decided hd cd).
Notation all_decided := (all_decided hcode fcode sig place other).
Definition xdecided (l : list event) (e : event) : Prop :=
  decided l e /\ forall k r, e = EHandled k r -> xh l = XDo (HReturn r).

Lemma xhost_decides fail s s' : xhost_step debug false xh fail s = Some s' ->
  log s' = log s \/ exists e, log s' = log s ++ [e] /\ xdecided (log s) e.
Proof.
  intros H.
  assert (C : (exists c f st, hpc s = HUser /\ xh (log s) = XThrow c /\ hstk s = f :: st) \/
     (xhost_step debug false xh fail s = host_step debug false hd fail s /\
      (forall f st, hpc s = HUser -> hstk s = f :: st -> exists a, xh (log s) = XDo a))).
  { rewrite <- (host_step_ext debug false (ThrowModel.plain xh) hd fail s plain_hd). unfold xhost_step.
    destruct (hpc s); try (right; split; [reflexivity|discriminate]).
    destruct (xh (log s)) as [a|c]; [right; split; eauto|]. destruct (hstk s) as [|f st]; [|left; eauto 8].
    right. split; [reflexivity|]. discriminate. }
  destruct C as [(c & f & st & E1 & E2 & E3)|[E D]].
  - unfold xhost_step in H. rewrite E1, E2, E3 in H. injection H as <-. right. exists EThrow. split; [reflexivity|].
    split; [exact Logic.I|discriminate].
  - rewrite E in H. destruct (host_decides debug hd cd fail s s' H) as [X|(e & X & Y)]; [auto|].
    right. exists e. split; [exact X|]. split; [exact Y|]. intros k r ->.
    assert (U : hpc s = HUser /\ exists f st, hstk s = f :: st).
    { clear - H X. unfold host_step in H. crunch H; injection H as <-; cbn [log] in X;
        try (apply (f_equal (@length _)) in X; rewrite app_length in X; cbn in X; lia);
        try (apply app_inj_tail in X as [_ X]; try discriminate); eauto. }
    destruct U as (U & f & st & V). destruct (D f st U V) as (a & Da). rewrite Da.
    cbn in Y. rewrite <- plain_hd in Y. unfold ThrowModel.plain in Y. rewrite Da in Y. subst a. reflexivity.
Qed.
Lemma xreach_decided s : reaches s -> forall l1 e l2, log s = l1 ++ e :: l2 -> xdecided l1 e.
Proof.
  intros R. induction R as [|s s' R IH St]; intros l1 e l2 E; [destruct l1; discriminate|].
  assert (X : log s' = log s \/ exists e, log s' = log s ++ [e] /\ xdecided (log s) e).
  { destruct St as [f a a' H|f a a' H]; [eapply xhost_decides; eauto|].
    destruct (child_decides debug hd cd f a a' H) as [X|(e0 & X & Y)]; [auto|]. right. exists e0. split; [exact X|].
    split; [exact Y|]. intros k r ->. exfalso. clear - H X. unfold child_step in H.
    crunch H; injection H as <-; cbn [log] in X;
        try (apply (f_equal (@length _)) in X; rewrite app_length in X; cbn in X; lia);
        try (apply app_inj_tail in X as [_ X]; discriminate). }
  destruct X as [X|(e0 & X & Y)]; rewrite X in E; [eapply IH; eauto|].
  destruct (snoc_inv l2) as [-> |(y & z & ->)].
  - apply app_inj_tail in E as [<- <-]. exact Y.
  - rewrite app_comm_cons, app_assoc in E. apply app_inj_tail in E as [E _]. eapply IH; eauto.
Qed.
Lemma xall_decided s : reaches s -> all_decided (log s).
Proof. intros R l1 e l2 E. apply (xreach_decided s R l1 e l2 E). Qed.

Definition xall (l : list event) : Prop := forall l1 e l2, l = l1 ++ e :: l2 -> xdecided l1 e.
Lemma xall_app l1 l2 : xall (l1 ++ l2) -> xall l1.
Proof. intros H a e b ->. apply (H a e (b ++ l2)). rewrite <- app_assoc. reflexivity. Qed.
Lemma xanswered_snoc t o : xanswered xcode t -> (forall k r, o = OHandled k r -> xcode t = Do (Give r)) -> xanswered xcode (t ++ [o]).
Proof.
  intros A H p k r q E. destruct (snoc_inv q) as [-> |(y & z & ->)].
  - apply app_inj_tail in E as [<- ->]. eapply H; reflexivity.
  - rewrite app_comm_cons, app_assoc in E. apply app_inj_tail in E as [-> _]. eapply A; reflexivity.
Qed.
Lemma xdecided_answered l : xall l -> xanswered xcode (seen (replay l)).
Proof.
  induction l as [|e l IH] using rev_ind; intros H.
  - intros p k r q E. destruct p; discriminate.
  - specialize (IH (xall_app _ _ H)). rewrite xsnoc.
    specialize (H l e [] eq_refl). destruct H as [_ H].
    destruct e; cbn [LinkModel.effect LinkModel.meanwhile note seen];
      try (apply xanswered_snoc; [exact IH|discriminate]).
    + destruct (hcode (seen (replay l))); [|exact IH]. apply xanswered_snoc; [exact IH|discriminate].
    + apply xanswered_snoc; [exact IH|]. intros k0 r0 E0. injection E0 as <- <-. specialize (H k r eq_refl).
      apply xdo in H as [(i' & args & E0 & _)|(r' & E0 & E)]; [discriminate|]. injection E0 as <-. exact E.
    + destruct (fcode (seen (replay l))); [exact IH|]. apply xanswered_snoc; [exact IH|discriminate].
Qed.

Lemma no_throw_load done : ~ In EThrow (load_events done).
Proof. intros X. apply in_flat_map in X as ([k r] & _ & X). cbn in X. intuition discriminate. Qed.

Lemma xrel_start st ct l : load_start ks (st, ct, l) -> xall l -> xrel st ct l.
Proof.
  intros (done & K & [E|(i & b & l' & E & l1 & l2 & E1 & E2)]) D.
  - injection E as -> -> ->. pose proof (same_replay hcode fcode sig other calm_frames _ _ (same_load done) []) as (F & Sn & _).
    pose proof (xdecided_answered _ D) as A. cbn [app] in *. cbn in F, Sn. fold (replay (load_events done)) in F, Sn.
    exists []. rewrite F. split; [reflexivity|].
    split; [constructor|]. rewrite Sn in *. cbn. rewrite Sn. split; [split; [|exact Logic.I]; constructor; auto|].
    intros l1 l2 E. destruct (no_throw_load done). rewrite E. apply in_or_app. right. left. reflexivity.
  - injection E as -> -> ->. subst l'.
    pose proof (xdecided_answered _ D) as A.
    assert (NT : leaked (l1 ++ EReq i b :: l2) []).
    { intros a1 a2 E. exfalso. apply (no_throw_load done). rewrite E1. 
      assert (X : In EThrow (l1 ++ EReq i b :: l2)) by (rewrite E; apply in_or_app; right; left; reflexivity).
      apply in_app_or in X as [X|[X|X]]; [| discriminate |]; apply in_or_app; auto. }
    assert (Q : xdecided l1 (EReq i b)) by (apply (D l1 _ l2); reflexivity). destruct Q as [Q _]. cbn in Q.
    pose proof (same_load done) as SL. rewrite E1 in SL. apply app_same in SL as (t1 & t2 & Es & S1 & S2).
    pose proof (same_replay hcode fcode sig other calm_frames _ _ S1 []) as (F1 & Sn1 & _).
    change (frames (replay l1) = []) in F1. change (seen (replay l1) = t1) in Sn1.
    unfold host_do in Q. change (LinkModel.replay hcode fcode sig other l1) with (replay l1) in Q.
    destruct (hcode (seen (replay l1))) as [i' args|r] eqn:H; [|discriminate].
    injection Q as -> <-.
    assert (Hx : xcode (seen (replay l1)) = Do (Call i args)).
    { unfold commands in H. destruct (xcode (seen (replay l1))); [subst c; reflexivity|discriminate]. }
    pose proof (same_replay hcode fcode sig other calm_frames _ _ S2 (l1 ++ [EReq i (place (replay l1) i)])) as (F2 & Sn2 & M2).
    rewrite <- app_assoc in F2, Sn2, M2. cbn [app] in F2, Sn2, M2.
    change (LinkModel.replay hcode fcode sig other) with replay in *.
    rewrite xsnoc, (seen_req _ _ _ _ _ _ _ _ H) in F2, Sn2, M2. cbn [frames seen mem] in F2, Sn2, M2.
    rewrite F1 in F2, M2. exists []. rewrite F2. split; [reflexivity|]. split; [repeat constructor|]. split; [|exact NT].
    cbn [xtold]. exists args. split; [|split; [exact Logic.I|]].
    + rewrite Sn2, Sn1, <- !app_assoc. cbn [app]. cbn [plain map]. rewrite Sn1 in Hx.
      apply (x_first _ _ _ done); auto. rewrite Sn2, Sn1, <- !app_assoc in A. exact A.
    + rewrite (read_args_ext sig layouts _ (put_bytes (other (replay l1)) (frame_stores (place (replay l1) i) (sig i) args))).
      * apply stored_args; [exact layouts|]. apply (proj1 types _ _ _ Hx).
      * intros x X. eapply M2; [left; reflexivity|discriminate|exact X].
Qed.

Lemma xreach_rel s : reaches s ->
  no_invoke (log s) \/
  exists st ct l, xrel st ct l /\ (log s = l \/ (log s = l ++ [EQuit] /\ st = [] /\ ct = InHost)).
Proof.
  intros R. destruct (throwing_is_sequential debug xh cd ks xnonnull xnocatch xquiet s R) as [N|(c0 & st & ct & l & LS & Q & E)]; [auto|].
  right. exists st, ct, l. split; [|exact E]. destruct c0 as [[st0 ct0] l0].
  assert (D : xall l) by
    (pose proof (xreach_decided s R) as D; destruct E as [E|(E & _ & _)]; rewrite E in D;
     [exact D|eapply xall_app; exact D]).
  destruct (xseq_prefix _ _ _ _ _ _ Q) as (x & Ex).
  eapply xrel_seq; [|exact Q]. apply xrel_start; [exact LS|]. subst l. eapply xall_app. exact D.
Qed.

(** ** Before the first function starts *)
Lemma xnot_started c0 st ct l : load_start ks c0 -> xseq xh cd c0 (st, ct, l) -> no_invoke l ->
  st = [] /\ (ct = InHost \/ exists i b, ct = Requested i b).
Proof.
  intros LS Q. remember (st, ct, l) as c eqn:Ec. revert st ct l Ec.
  induction Q as [|c c' Q IH St]; intros st ct l Ec N.
  - destruct LS as (done & K & [E|(i & b & l' & E & _)]); rewrite E in Ec; injection Ec as <- <- <-; eauto.
  - subst. destruct c as [[st1 ct1] l1].
    assert (N1 : no_invoke l1).
    { inversion St as [st2 ct2 l2 c2 _ Q2|]; subst; [inversion Q2; subst|]; apply no_invoke_app in N; tauto. }
    destruct (IH _ _ _ eq_refl N1) as [-> C].
    inversion St as [st2 ct2 l2 c2 _ Q2|]; subst. inversion Q2; subst; try (destruct C as [C|(i0 & b0 & C)]; discriminate); eauto.
    destruct (N i b). apply in_or_app. right. left. reflexivity.
Qed.
Lemma xlog s s' : xstep debug false xh cd s s' -> exists x, log s' = log s ++ x.
Proof.
  intros St. destruct St as [f a a' H|f a a' H]; [eapply xhost_log; eauto|eapply child_log; eauto].
Qed.
Lemma early_plain s : reaches s -> no_invoke (log s) -> reach debug false hd cd (fresh ks) s.
Proof.
  intros R. induction R as [|s s' R IH St]; intros N; [constructor|].
  destruct (xlog _ _ St) as (x & E).
  assert (NI : no_invoke (log s)) by (rewrite E in N; apply no_invoke_app in N; tauto).
  specialize (IH NI). econstructor; [exact IH|].
  destruct St as [f a a' H|f a a' H]; [|apply step_child with (fail := f); exact H].
  apply step_host with (fail := f). rewrite <- (host_step_ext debug false (ThrowModel.plain xh) hd f a plain_hd).
  destruct (XAll_reach debug xh cd xnonnull xnocatch ks xquiet a R) as [L|(c0 & LS & HI)].
  - rewrite <- (LInv_plain debug xh ks xquiet f a L). exact H.
  - assert (Hk : hpc a = HUser -> hstk a = []).
    { clear - HI LS NI. intros U. destruct HI; cbn in *; unfold waiting in *; ProtoLoad.cases; try discriminate.
      destruct H1 as [S _]. destruct (xnot_started _ _ _ _ LS S NI) as [Es _]. apply dead_hf, er_dead; auto. }
    unfold xhost_step in H. destruct (hpc a); try exact H. destruct (xh (log a)); [exact H|].
    rewrite (Hk eq_refl) in H. exact H.
Qed.
Lemma xreach_early s : reaches s -> no_invoke (log s) -> Forall early (log s).
Proof.
  intros R N. eapply (reach_early hcode fcode sig place other ks fresh_frames); [|apply early_plain; eauto|exact N].
  intros t k i args Kk Ns E. destruct (quiet_load t k Kk Ns) as (r & X). unfold commands in E. rewrite X in E. discriminate.
Qed.
End XLink.
