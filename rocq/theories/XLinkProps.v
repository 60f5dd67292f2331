(** C77: a library behaves in a sandbox as if it were linked into the program, also
    when callback handlers throw. *)
From Coq Require Import List ZArith Bool Lia.
From Verif Require Import ProtoModel ProtoSpec ProtoProof ProtoLoad ProtoProgress ProtoProps ProtoLoadProgress.
From Verif Require Import FrameModel FrameSpec FrameProps LinkModel LinkSpec LinkProof LinkProps.
From Verif Require Import ThrowModel ThrowSpec ThrowProof ThrowProps XLinkModel XLinkSpec XLinkProof.
Import ListNotations.
Open Scope Z_scope.

Section Claims.
Variable xcode : list obs -> xcmd.
Variable fcode : list obs -> fcmd.
Variable sig : Z -> layout.
Variable place : world -> Z -> Z.
Variable other : world -> memory.
Variable ks : list Z.
Variable debug : bool.
Hypothesis layouts : proper sig.
Hypothesis fresh_frames : allocates sig place.
Hypothesis calm_frames : calm sig other.
Hypothesis types : xtyped xcode fcode ks sig.
(** Handlers of callbacks made while the library loads return without calling into
    it (C73, loading_throw_hangs). *)
Hypothesis quiet_load : forall t k, In k ks -> (forall i a, ~ In (OStart i a) t) ->
  exists r, xcode (t ++ [OHandle k]) = Do (Give r).

Notation hcode := (commands xcode).
Notation replay := (xreplay xcode fcode sig other).
Notation xh := (xhost_do xcode fcode sig place other).
Notation cd := (xchild_do xcode fcode sig other).
Notation rch := (xreach debug false xh cd).
Notation reaches := (rch (fresh ks)).
Notation direct := (xdirect xcode fcode ks).
Notation plain := LinkProof.plain.
Notation rels := (xreach_rel xcode fcode sig place other ks layouts fresh_frames calm_frames types quiet_load debug).
Notation snoc := (xsnoc xcode fcode sig other).

(** C77. Everything the user's code on the two sides does and sees is what it would
    do and see if the library were linked into the program, called directly, and an
    exception unwound the program's stack to its top level: the history is one of the
    direct program, or one that lacks its last observation, or one after whose end
    the library was destroyed. *)
Theorem throwing_linked_history s : reaches s ->
  let t := seen (replay (log s)) in
  not_begun t \/
  exists st u, direct st u /\ (t = u \/ (exists o, u = t ++ [o]) \/ (t = u ++ [OQuit] /\ st = [])).
Proof.
  intros R. cbn zeta. destruct (rels s R) as [N|(st & ct & l & (lk & F & S & T & _) & E)].
  - left. apply early_seen. eapply xreach_early; eauto.
  - right. destruct E as [-> |(-> & -> & ->)].
    + destruct ct; cbn [xtold] in T.
      * destruct T as [D _]. eauto 6.
      * destruct T as [D _]. eauto 6.
      * destruct T as (a & D & _). eauto 8.
      * destruct T as (a & D & _). eauto 8.
      * eauto 8.
      * destruct T as [D _]. eauto 8.
    + destruct T as [D _]. exists [], (seen (replay l)). split; [exact D|]. right. right.
      rewrite snoc. split; reflexivity.
Qed.

(** C77. No two argument frames overlap, those of abandoned calls included. *)
Theorem throwing_linked_frames s : reaches s -> ForallOrdPairs (apart sig) (frames (replay (log s))).
Proof.
  intros R. apply (decided_spread hcode fcode sig place other fresh_frames).
  eapply xall_decided; eauto.
Qed.

Lemma no_throw_early l : Forall early l -> ~ In EThrow l.
Proof. intros E X. rewrite Forall_forall in E. exact (E _ X). Qed.

(** C77. The argument frames that are in use when an exception is thrown stay
    allocated for as long as the library exists. *)
Theorem throwing_leaks_frames s l1 l2 : reaches s -> log s = l1 ++ EThrow :: l2 ->
  incl (frames (replay l1)) (frames (replay (log s))).
Proof.
  intros R E. destruct (rels s R) as [N|(st & ct & l & (lk & F & S & T & K) & El)].
  - exfalso. eapply no_throw_early; [eapply xreach_early; eauto|]. rewrite E. apply in_or_app. right. left. reflexivity.
  - destruct El as [El|(El & -> & ->)].
    + rewrite <- El in K, F. rewrite F. apply incl_appr. eapply K. exact E.
    + rewrite El, snoc. cbn [effect meanwhile note frames]. rewrite F. apply incl_appr. rewrite E in El.
      destruct (snoc_inv l2) as [-> |(y & z & ->)].
      * apply app_inj_tail in El as [_ El]. discriminate.
      * rewrite app_comm_cons, app_assoc in El. apply app_inj_tail in El as [<- _]. eapply K. reflexivity.
Qed.

(** ** The direct program is deterministic once a function has started *)
Inductive xdstep : list doing -> list obs -> list obs -> list doing -> Prop :=
| xs_call st t i args : hosts_turn st -> xcode t = Do (Call i args) -> xdstep st t [OCall i args; OStart i args] (Fn i :: st)
| xs_callback i st t k : fcode t = Back k -> xdstep (Fn i :: st) t [OCallback k; OHandle k] (Handling k :: Fn i :: st)
| xs_answer k st t r : xcode t = Do (Give r) -> xdstep (Handling k :: st) t [OHandled k r; OResume k r] st
| xs_return i st t v : fcode t = Result v -> xdstep (Fn i :: st) t [OReturn i v; ODone i v] st
| xs_throw k st t : xcode t = Throw -> xdstep (Handling k :: st) t [OThrow] [].
Lemma xdstep_det st t a st1 c st2 : xdstep st t a st1 -> xdstep st t c st2 -> a = c /\ st1 = st2.
Proof.
  intros H1 H2. inversion H1; subst; inversion H2; subst; try contradiction; repeat split; try congruence; auto.
Qed.
(** Between two steps. *)
Definition settled (t : list obs) : Prop :=
  match rev t with (OStart _ _ | OHandle _ | OResume _ _ | ODone _ _ | OThrow) :: _ => True | _ => False end.
Lemma settled_snoc t o : settled (t ++ [o]) <-> match o with OStart _ _ | OHandle _ | OResume _ _ | ODone _ _ | OThrow => True | _ => False end.
Proof. unfold settled. rewrite rev_app_distr. cbn. reflexivity. Qed.
Lemma xdirect_settled st t : direct st t -> begun t -> settled t.
Proof.
  intros D (i & a & B). inversion D; subst.
  - destruct (served_no_start _ _ _ B).
  - rewrite app_comm_cons, app_assoc. apply settled_snoc. exact Logic.I.
  - change [OCall i0 args; OStart i0 args] with ([OCall i0 args] ++ [OStart i0 args]). rewrite app_assoc. apply settled_snoc. exact Logic.I.
  - change [OCallback k; OHandle k] with ([OCallback k] ++ [OHandle k]). rewrite app_assoc. apply settled_snoc. exact Logic.I.
  - change [OHandled k r; OResume k r] with ([OHandled k r] ++ [OResume k r]). rewrite app_assoc. apply settled_snoc. exact Logic.I.
  - change [OReturn i0 v; ODone i0 v] with ([OReturn i0 v] ++ [ODone i0 v]). rewrite app_assoc. apply settled_snoc. exact Logic.I.
  - apply settled_snoc. exact Logic.I.
Qed.
Lemma half st t a b st' : xdstep st t [a; b] st' -> ~ settled (t ++ [a]).
Proof. intros H. rewrite settled_snoc. inversion H; subst; auto. Qed.

Lemma xlast_step st t u : direct st (t ++ u) -> begun t -> settled t -> u <> [] ->
  exists v x st', u = v ++ x /\ direct st' (t ++ v) /\ xdstep st' (t ++ v) x st.
Proof.
  intros D B St NE.
  assert (C : forall t0 x y st', t ++ u = t0 ++ [x; y] -> direct st' t0 -> xdstep st' t0 [x; y] st ->
    exists v x st', u = v ++ x /\ direct st' (t ++ v) /\ xdstep st' (t ++ v) x st).
  { intros t0 x y st' E D0 S0. destruct (snoc_inv u) as [-> |(u1 & y' & ->)]; [congruence|].
    replace (t0 ++ [x; y]) with ((t0 ++ [x]) ++ [y]) in E by (rewrite <- app_assoc; reflexivity).
    rewrite app_assoc in E. apply app_inj_tail in E as [E ->].
    destruct (snoc_inv u1) as [-> |(v & x' & ->)].
    { exfalso. rewrite app_nil_r in E. subst t. exact (half _ _ _ _ _ S0 St). }
    exists v, [x; y], st'. rewrite app_assoc in E. apply app_inj_tail in E as [<- ->].
    rewrite <- app_assoc. auto. }
  inversion D; subst; try (eapply C; [symmetry; eassumption|eassumption|constructor; assumption]).
  - exfalso. destruct B as (i & a & B).
    match goal with [ E : served done = _ |- _ ] => apply (served_no_start done i a); rewrite E; apply in_or_app; auto end.
  - exfalso. destruct B as (i' & a & B). match goal with [ E : _ ++ OCall _ _ :: _ ++ [_] = t ++ u |- _ ] => rename E into E0 end.
    destruct (snoc_inv u) as [-> |(u1 & y' & ->)]; [congruence|].
    replace (l1 ++ OCall i args :: l2 ++ [OStart i args]) with ((l1 ++ OCall i args :: l2) ++ [OStart i args]) in E0
      by (rewrite <- app_assoc; reflexivity).
    rewrite app_assoc in E0. apply app_inj_tail in E0 as [E0 _].
    assert (X : In (OStart i' a) (l1 ++ OCall i args :: l2)) by (rewrite E0; apply in_or_app; auto).
    apply (served_no_start done i' a). match goal with [ E : served done = _ |- _ ] => rewrite E end.
    apply in_app_or in X as [X|[X|X]]; [| discriminate |]; apply in_or_app; auto.
  - match goal with [ E : _ ++ [OThrow] = t ++ u |- _ ] => rename E into E0 end.
    destruct (snoc_inv u) as [-> |(v & y' & ->)]; [congruence|].
    rewrite app_assoc in E0. apply app_inj_tail in E0 as [-> <-]. exists v, [OThrow], (Handling k :: st0).
    split; [reflexivity|]. split; [assumption|]. constructor. assumption.
Qed.

Definition xpush (st : list doing) (o : obs) : list doing := match o with OThrow => [] | _ => push st o end.
Lemma xpush_served done st : fold_left xpush (served done) st = st.
Proof. induction done as [|[k r] done IH]; cbn; auto. Qed.
Lemma xdirect_stack st t : direct st t -> fold_left xpush t [] = st.
Proof.
  induction 1; rewrite ?fold_left_app; cbn [fold_left xpush push]; try (rewrite IHxdirect; reflexivity); [|  |reflexivity].
  - apply xpush_served.
  - rewrite fold_left_app. cbn [fold_left xpush push].
    assert (X : fold_left xpush (l1 ++ l2) [] = []) by (rewrite <- H0; apply xpush_served).
    rewrite fold_left_app in X. rewrite X. reflexivity.
Qed.
Lemma xsame_stack st1 st2 t : direct st1 t -> direct st2 t -> st1 = st2.
Proof. intros A B. rewrite <- (xdirect_stack _ _ A). apply xdirect_stack. exact B. Qed.
Lemma begun_app t u : begun t -> begun (t ++ u).
Proof. intros (i & a & B). exists i, a. apply in_or_app. auto. Qed.

(** The first step of a continuation. *)
Lemma xfirst_step n : forall t u st st', length u = n -> begun t -> direct st t -> direct st' (t ++ u) -> u <> [] ->
  exists x v st1, u = x ++ v /\ x <> [] /\ xdstep st t x st1 /\ direct st1 (t ++ x).
Proof.
  induction n as [n IH] using lt_wf_ind. intros t u st st' L B D D' NE.
  destruct (xlast_step _ _ _ D' B (xdirect_settled _ _ D B) NE) as (v & x & s1 & -> & P & S1).
  assert (Nx : x <> []) by (inversion S1; subst; discriminate).
  destruct v as [|y v'] eqn:Ev.
  - cbn [app] in *. rewrite app_nil_r in *. rewrite (xsame_stack _ _ _ P D) in S1.
    exists x, [], st'. rewrite app_nil_r. auto.
  - rewrite <- Ev in *. rewrite app_length in L. assert (length x > 0)%nat by (destruct x; [congruence|cbn; lia]).
    destruct (IH (length v)) with (t := t) (u := v) (st := st) (st' := s1) as (x' & v2 & s2 & -> & X1 & X2 & X3); auto;
      [lia|subst v; discriminate|]. exists x', (v2 ++ x), s2. rewrite app_assoc. auto.
Qed.

(** ** Progress *)
Lemma xtrans a b c : rch a b -> rch b c -> rch a c.
Proof. intros A B. induction B; auto. econstructor; eauto. Qed.
Lemma xstep_log s s' : xstep debug false xh cd s s' -> log s' = log s \/ exists e, log s' = log s ++ [e].
Proof.
  intros St. destruct St as [f a a' H|f a a' H].
  - destruct (xhost_decides xcode fcode sig place other debug f a a' H) as [X|(e & X & _)]; eauto.
  - apply child_decides with (host_do := host_do hcode fcode sig place other) in H. destruct H as [H|(e & H & _)]; eauto.
Qed.
Lemma xrch_log s s' : rch s s' -> exists x, log s' = log s ++ x.
Proof. apply xreach_log. Qed.
Lemma xcrossing s s' : rch s s' -> (length (log s) < length (log s'))%nat ->
  exists s1 e, rch s s1 /\ log s1 = log s ++ [e].
Proof.
  intros R. induction R as [|s1 s2 R IH St]; intros L; [lia|].
  destruct (Nat.lt_ge_cases (length (log s)) (length (log s1))) as [H|H]; [exact (IH H)|].
  destruct (xrch_log _ _ R) as (x & E). rewrite E, app_length in H. destruct x; [|cbn in H; lia].
  rewrite app_nil_r in E. destruct (xstep_log _ _ St) as [E2|(e & E2)]; [rewrite E2, E in L; lia|].
  exists s2, e. split; [econstructor; eauto|]. congruence.
Qed.
Lemma xended_quit s : reaches s -> hpc s = HEnd -> In EQuit (log s).
Proof.
  intros R H.
  destruct (XAll_reach debug xh cd (xnonnull xcode fcode sig place other fresh_frames)
    (xnocatch xcode fcode sig place other) ks (xquiet xcode fcode sig place other ks quiet_load) s R) as [L|(c0 & LS & HI)].
  - destruct L; cbn in H; unfold basew, base in *; ProtoLoad.cases; subst; try discriminate.
    match goal with [ E : log s = _ |- _ ] => rewrite E end. apply in_or_app. right. left. reflexivity.
  - destruct HI; cbn in H; unfold waiting in *; ProtoLoad.cases; subst; try discriminate; apply in_or_app; right; left; reflexivity.
Qed.
Lemma xdirect_no_quit st t : direct st t -> ~ In OQuit t.
Proof.
  assert (N : forall done, ~ In OQuit (served done)).
  { intros done X. apply in_flat_map in X as ([k r] & _ & X). cbn in X. intuition discriminate. }
  induction 1; rewrite ?in_app_iff; cbn [In]; try (intuition discriminate).
  - apply N.
  - specialize (N done). rewrite H0, in_app_iff in N. rewrite in_app_iff. cbn. intuition discriminate.
Qed.
Lemma xnext_event s : reaches s -> begun (seen (replay (log s))) -> ~ In OQuit (seen (replay (log s))) ->
  exists s' e o, rch s s' /\ reaches s' /\ log s' = log s ++ [e] /\ seen (replay (log s')) = seen (replay (log s)) ++ [o].
Proof.
  intros R B Q. destruct (invoked_begun hcode fcode sig other _ B) as (i & b & IV).
  assert (NE : hpc s <> HEnd) by (intros E; apply Q, quit_seen, xended_quit; assumption).
  destruct (throwing_makes_progress debug xh cd ks (xnonnull xcode fcode sig place other fresh_frames)
    (xnocatch xcode fcode sig place other) (xquiet xcode fcode sig place other ks quiet_load) s i b R IV NE) as (s' & R' & X).
  assert (Y : exists s1 e, rch s s1 /\ log s1 = log s ++ [e]).
  { apply (xcrossing _ _ R'). destruct X as [X|X]; [exact X|].
    destruct (xrch_log _ _ R') as (x & E). destruct x as [|e x]; [|rewrite E, app_length; cbn; lia].
    exfalso. apply Q, quit_seen. rewrite app_nil_r in E. rewrite <- E. apply xended_quit; auto. eapply xtrans; eauto. }
  destruct Y as (s1 & e & R1 & E1).
  assert (R2 : reaches s1) by (eapply xtrans; eauto).
  pose proof (seen_length _ _ _ _ _ _ (xall_decided xcode fcode sig place other ks debug s R)) as L0.
  pose proof (seen_length _ _ _ _ _ _ (xall_decided xcode fcode sig place other ks debug s1 R2)) as L1.
  destruct (seen_prefix hcode fcode sig other (log s) e) as (x & Ex). rewrite <- E1 in Ex.
  rewrite Ex, E1, !app_length in L1. cbn in L1. destruct x as [|o [|o' x]]; cbn in L1; try lia.
  exists s1, e, o. auto.
Qed.
Lemma begun_not t : begun t -> ~ not_begun t.
Proof. intros (i & a & B) N. exact (N _ B). Qed.

(** The next observation is that of the direct program. *)
Lemma xnext_right s st x st1 : reaches s ->
  let t := seen (replay (log s)) in
  begun t -> direct st t -> xdstep st t x st1 -> direct st1 (t ++ x) ->
  exists s' o y, rch s s' /\ reaches s' /\ seen (replay (log s')) = t ++ [o] /\ x = o :: y.
Proof.
  intros R t B D St D1. pose proof (xdirect_settled _ _ D B) as Se.
  destruct (xnext_event s R B (xdirect_no_quit _ _ D)) as (s1 & e & o & R1 & R1' & El & E1). fold t in E1.
  exists s1, o. cut (exists y, x = o :: y); [intros (y & Y); exists y; auto|].
  destruct (throwing_linked_history s1 R1') as [N|(st2 & u & D2 & X)]; rewrite E1 in *.
  { destruct (begun_not _ (begun_app _ [o] B) N). }
  assert (C : forall z, direct st2 (t ++ o :: z) -> exists y, x = o :: y).
  { intros z Dz. destruct (xfirst_step _ t (o :: z) st st2 eq_refl B D Dz) as (x' & v & s3 & Ex & Nx & Sx & _); [discriminate|].
    destruct (xdstep_det _ _ _ _ _ _ St Sx) as [-> _]. destruct x' as [|o' x']; [congruence|]. injection Ex as -> _. eauto. }
  destruct X as [<-|[(o' & ->)|(X & ->)]].
  - apply (C []). exact D2.
  - apply (C [o']). rewrite <- app_assoc in D2. exact D2.
  - exfalso. apply app_inj_tail in X as [<- ->].
    assert (E0 : st = []) by (eapply xsame_stack; eauto). subst st. inversion St; subst.
    assert (Ee : e = EQuit).
    { rewrite El in E1. rewrite snoc in E1. destruct e; cbn in E1; try (apply app_inj_tail in E1 as [_ E1]; discriminate E1); auto.
      - destruct (hcode (seen (replay (log s)))); cbn in E1; [apply app_inj_tail in E1 as [_ E1]; discriminate E1|].
        fold t in E1. apply (f_equal (@length _)) in E1. rewrite app_length in E1. cbn in E1. lia.
      - destruct (fcode (seen (replay (log s)))); cbn in E1; [|apply app_inj_tail in E1 as [_ E1]; discriminate E1].
        fold t in E1. apply (f_equal (@length _)) in E1. rewrite app_length in E1. cbn in E1. lia. }
    subst e. pose proof (xall_decided xcode fcode sig place other ks debug s1 R1' (log s) EQuit [] El) as (r & Hr).
    unfold host_do in Hr. change (LinkModel.replay hcode fcode sig other (log s)) with (replay (log s)) in Hr. fold t in Hr.
    unfold commands in Hr at 1. rewrite H0 in Hr. discriminate.
Qed.
Lemma xrealise_step s st x st1 : reaches s ->
  let t := seen (replay (log s)) in
  begun t -> direct st t -> xdstep st t x st1 -> direct st1 (t ++ x) ->
  exists s', rch s s' /\ reaches s' /\ seen (replay (log s')) = t ++ x.
Proof.
  intros R t B D St D1.
  destruct (xnext_right s st x st1 R B D St D1) as (s1 & o & y & R1 & R1' & E1 & ->). fold t in E1.
  destruct y as [|o2 y]; [exists s1; auto|].
  assert (y = []) by (inversion St; reflexivity). subst y.
  assert (B1 : begun (t ++ [o])) by (apply begun_app; exact B).
  assert (Ns : ~ settled (t ++ [o])) by (eapply half; exact St).
  destruct (xnext_event s1 R1') as (s2 & e & p & R2 & R2' & _ & E2); [rewrite E1; exact B1| |].
  { rewrite E1. intros Q. apply (xdirect_no_quit _ _ D1). apply in_app_or in Q as [Q|[Q|[]]]; apply in_or_app; [auto|].
    right. left. exact Q. }
  exists s2. split; [eapply xtrans; eauto|]. split; [exact R2'|]. rewrite E1, <- app_assoc in E2. cbn [app] in E2.
  rewrite E2. do 2 f_equal.
  destruct (throwing_linked_history s2 R2') as [N|(st2 & u & D2 & X)]; rewrite E2 in *.
  { destruct (begun_not _ (begun_app _ [o; p] B) N). }
  assert (C : forall z, direct st2 (t ++ o :: p :: z) -> [p] = [o2]).
  { intros z Dz. destruct (xfirst_step _ t (o :: p :: z) st st2 eq_refl B D Dz) as (x' & v & s3 & Ex & Nx & Sx & _); [discriminate|].
    destruct (xdstep_det _ _ _ _ _ _ St Sx) as [<- _]. injection Ex as -> _. reflexivity. }
  destruct X as [<-|[(o' & ->)|(X & ->)]].
  - apply (C []). exact D2.
  - apply (C [o']). rewrite <- app_assoc in D2. exact D2.
  - exfalso. change [o; p] with ([o] ++ [p]) in X. rewrite app_assoc in X. apply app_inj_tail in X as [<- ->].
    apply Ns. eapply xdirect_settled; eauto.
Qed.

(** C77. Everything the direct program could go on to do, exceptions included, the
    sandboxed one can. *)
Theorem throwing_linked_realises s st st' u : reaches s ->
  let t := seen (replay (log s)) in
  begun t -> direct st t -> direct st' (t ++ u) ->
  exists s', rch s s' /\ seen (replay (log s')) = t ++ u.
Proof.
  intros R t B D D'. remember (length u) as n eqn:L. revert s st u R t B D D' L.
  induction n as [n IH] using lt_wf_ind. intros s st u R t B D D' L.
  destruct u as [|x u'] eqn:Eu; [exists s; split; [constructor|rewrite app_nil_r; reflexivity]|].
  rewrite <- Eu in *.
  destruct (xfirst_step n t u st st') as (a & v & st1 & E & Na & St & D1); auto; [subst u; discriminate|].
  destruct (xrealise_step s st a st1 R B D St D1) as (s1 & R1 & R1' & E1). fold t in E1.
  destruct (IH (length v)) with (s := s1) (st := st1) (u := v) as (s2 & R2 & E2); auto.
  - subst n. rewrite E, app_length. destruct a; [congruence|cbn; lia].
  - rewrite E1. apply begun_app. exact B.
  - rewrite E1. exact D1.
  - rewrite E1, <- app_assoc. rewrite <- E. exact D'.
  - exists s2. split; [eapply xtrans; eauto|]. rewrite E2, E1, <- app_assoc, E. reflexivity.
Qed.

(** ** The number of frames *)
Definition counted (l : list event) : Prop := Z.of_nat (length (frames (replay l))) = in_progress (seen (replay l)).
Lemma mark_length b p fs : length (mark b p fs) = length fs.
Proof. apply map_length. Qed.
Lemma xcount_step st ct l st' ct' l' : xrel xcode fcode sig other ks st ct l ->
  xseq_step xh cd (st, ct, l) (st', ct', l') -> counted l -> counted l'.
Proof.
  intros (lk & F & S & T & _) Q C. unfold counted in *. inversion Q as [st0 ct0 l0 c' XD Q' Ea Eb|k st0 l0 XT]; subst.
  2: { rewrite snoc. cbn [effect meanwhile note frames seen]. rewrite in_progress_app. cbn. lia. }
  inversion Q'; subst; rewrite snoc; cbn [effect meanwhile note frames seen];
    rewrite ?in_progress_app, ?mark_length; cbn [in_progress]; try lia.
  - destruct (hcode (seen (replay l))); cbn [frames seen length]; [|exact C]. rewrite in_progress_app. cbn. lia.
  - destruct (fcode (seen (replay l))); cbn [frames seen]; [exact C|]. rewrite in_progress_app, mark_length. cbn. lia.
  - rewrite F in *. cbn [all_frames app] in *. rewrite (release_head sig layouts i b PFinished) by exact S. cbn in C. lia.
Qed.
Lemma xcount_seq st0 ct0 l0 st ct l : xrel xcode fcode sig other ks st0 ct0 l0 -> counted l0 ->
  xseq xh cd (st0, ct0, l0) (st, ct, l) -> counted l.
Proof.
  intros R C Q. remember (st0, ct0, l0) as a eqn:Ea. remember (st, ct, l) as c eqn:Ec. revert st ct l Ec.
  induction Q as [|c c' Q IH St]; intros st ct l Ec.
  - subst. injection Ec as -> -> ->. exact C.
  - subst. destruct c as [[st1 ct1] l1]. eapply xcount_step; [|exact St|apply (IH _ _ _ eq_refl)].
    eapply (xrel_seq xcode fcode sig place other ks layouts fresh_frames calm_frames types); eauto.
Qed.
Lemma load_early st ct l : load_start ks (st, ct, l) -> Forall early l.
Proof.
  assert (A : forall done, Forall early (load_events done)).
  { intros done. apply Forall_forall. intros e X. apply in_flat_map in X as ([k r] & _ & X). cbn in X.
    intuition (subst; exact Logic.I). }
  intros (done & K & [E|(i & b & l' & E & l1 & l2 & E1 & E2)]); injection E as -> -> ->; [apply A|]. subst.
  specialize (A done). rewrite E1 in A. apply Forall_app in A as [A1 A2]. apply Forall_app. split; [exact A1|].
  constructor; [exact Logic.I|exact A2].
Qed.

(** C77. There are exactly as many argument frames as calls that were made and have
    not returned: nothing but an exception leaks one. *)
Theorem throwing_counts_frames s : reaches s ->
  let w := replay (log s) in Z.of_nat (length (frames w)) = in_progress (seen w).
Proof.
  intros R. cbn zeta.
  pose proof (xall_decided xcode fcode sig place other ks debug s R) as AD.
  destruct (throwing_is_sequential debug xh cd ks (xnonnull xcode fcode sig place other fresh_frames)
    (xnocatch xcode fcode sig place other) (xquiet xcode fcode sig place other ks quiet_load) s R)
    as [N|(c0 & st & ct & l & LS & Q & E)].
  - eapply (early_frames hcode fcode sig place other); [|exact AD]. eapply xreach_early; eauto.
  - destruct c0 as [[st0 ct0] l0]. destruct (xseq_prefix xcode fcode sig place other _ _ _ _ _ _ Q) as (x & Ex).
    assert (D : xall xcode fcode sig place other l) by
      (pose proof (xreach_decided xcode fcode sig place other ks debug s R) as D;
       destruct E as [E|(E & _ & _)]; rewrite E in D; [exact D|eapply xall_app; exact D]).
    assert (D0 : xall xcode fcode sig place other l0) by (subst l; eapply xall_app; exact D).
    assert (C : counted l).
    { eapply xcount_seq; [|  |exact Q].
      - eapply xrel_start; eauto.
      - apply (early_frames hcode fcode sig place other); [eapply load_early; eauto|].
        intros a e b Eab. apply (D0 a e b Eab). }
    destruct E as [E|(E & _ & _)]; rewrite E; [exact C|]. rewrite snoc. cbn [effect meanwhile note frames seen].
    rewrite in_progress_app. cbn. unfold counted in C. lia.
Qed.
End Claims.

(** ** A concrete program: LinkProps.demo with a handler that throws.  Function 1
    calls back with 42; that handler calls function 2, which calls back with 6; the
    handler of 6 throws.  The top level then calls function 2 again. *)
Definition wild_h (t : list obs) : xcmd :=
  match rev t with
  | [] => Do (Call 1 [[20]; [22]])
  | OHandle k :: r => if LinkProps.started r then (if k =? 6 then Throw else Do (Call 2 [[1; 2; 3]])) else Do (Give 5)
  | OThrow :: _ => Do (Call 2 [[7; 8; 9]])
  | _ => Do (Give 0)
  end.
Definition wild_f (t : list obs) : fcmd :=
  match rev t with
  | OStart 1 [[a]; [b]] :: _ => Back (a + b)
  | OStart 2 [[a; b; c]] :: _ => if a =? 1 then Back 6 else Result [a * b; c]
  | _ => Result [0; 0]
  end.
Lemma wild_typed ks : xtyped wild_h wild_f ks demo_sig.
Proof.
  split.
  - unfold wild_h, sized. intros t i args. destruct (rev t) as [|o r]; [intros E; injection E as <- <-; repeat constructor|].
    destruct o; try discriminate.
    + destruct (LinkProps.started r); [|discriminate]. destruct (k =? 6); [discriminate|]. intros E; injection E as <- <-. repeat constructor.
    + intros E; injection E as <- <-. repeat constructor.
  - intros st t i v _ E.
    assert (L : length v = 2%nat).
    { unfold wild_f in E. repeat match type of E with context [match ?x with _ => _ end] => destruct x; try discriminate end;
        injection E as <-; reflexivity. }
    rewrite L. unfold demo_sig. destruct (i =? 1); reflexivity.
Qed.
Lemma wild_quiet_load t k : In k [3] -> (forall i a, ~ In (OStart i a) t) -> exists r, wild_h (t ++ [OHandle k]) = Do (Give r).
Proof.
  intros _ N. unfold wild_h. rewrite rev_app_distr. cbn [rev app].
  destruct (LinkProps.started (rev t)) eqn:E; [|eauto]. exfalso. apply existsb_exists in E as (o & I & E).
  destruct o; try discriminate. apply (N i args). apply in_rev. exact I.
Qed.

Notation wild_xh := (xhost_do wild_h wild_f demo_sig demo_place demo_other).
Notation wild_cd := (xchild_do wild_h wild_f demo_sig demo_other).
Notation wild_replay := (xreplay wild_h wild_f demo_sig demo_other).

(** The call after the exception is made and returns; the two abandoned frames are
    still there at the end. *)
Example wild_link_runs :
  let s := xexec true wild_xh wild_cd (turns 200) (fresh [3]) in
  hpc s = HEnd /\ map f_fn (frames (wild_replay (log s))) = [2; 1] /\
  seen (wild_replay (log s)) =
    [OCall 1 [[20]; [22]]; OCallback 3; OHandle 3; OHandled 3 5; OResume 3 5;
     OStart 1 [[20]; [22]]; OCallback 42; OHandle 42;
       OCall 2 [[1; 2; 3]]; OStart 2 [[1; 2; 3]]; OCallback 6; OHandle 6; OThrow;
     OCall 2 [[7; 8; 9]]; OStart 2 [[7; 8; 9]]; OReturn 2 [56; 9]; ODone 2 [56; 9]; OQuit].
Proof. vm_compute. repeat split. Qed.

(** In the handler that is about to throw the hypotheses of
    throwing_linked_realises hold, with the exception as a continuation. *)
Example wild_link_throws :
  let s := xexec true wild_xh wild_cd (turns 59) (fresh [3]) in
  let t := seen (wild_replay (log s)) in
  begun t /\ exists st, xdirect wild_h wild_f [3] st t /\ xdirect wild_h wild_f [3] [] (t ++ [OThrow]).
Proof.
  cbn zeta.
  assert (E : seen (wild_replay (log (xexec true wild_xh wild_cd (turns 59) (fresh [3])))) =
    [OCall 1 [[20]; [22]]; OCallback 3; OHandle 3; OHandled 3 5; OResume 3 5;
     OStart 1 [[20]; [22]]; OCallback 42; OHandle 42;
     OCall 2 [[1; 2; 3]]; OStart 2 [[1; 2; 3]]; OCallback 6; OHandle 6]) by (vm_compute; reflexivity).
  rewrite E. split; [exists 1, [[20]; [22]]; cbn; auto 8|].
  match goal with |- exists st, xdirect _ _ _ st ?t /\ _ => assert (D : xdirect wild_h wild_f [3] [Handling 6; Fn 2; Handling 42; Fn 1] t) end.
  { apply (x_callback wild_h wild_f [3] 2 [Handling 42; Fn 1] [OCall 1 [[20]; [22]]; OCallback 3; OHandle 3; OHandled 3 5; OResume 3 5;
       OStart 1 [[20]; [22]]; OCallback 42; OHandle 42; OCall 2 [[1; 2; 3]]; OStart 2 [[1; 2; 3]]] 6); [|reflexivity].
    apply (x_call wild_h wild_f [3] [Handling 42; Fn 1] [OCall 1 [[20]; [22]]; OCallback 3; OHandle 3; OHandled 3 5; OResume 3 5;
       OStart 1 [[20]; [22]]; OCallback 42; OHandle 42] 2 [[1; 2; 3]]); [|exact Logic.I|reflexivity].
    apply (x_callback wild_h wild_f [3] 1 [] [OCall 1 [[20]; [22]]; OCallback 3; OHandle 3; OHandled 3 5; OResume 3 5; OStart 1 [[20]; [22]]] 42);
      [|reflexivity].
    apply (x_first wild_h wild_f [3] [(3, 5)] [] [OCallback 3; OHandle 3; OHandled 3 5; OResume 3 5] 1 [[20]; [22]]); try reflexivity.
    intros p k r q H. cbn [app] in H.
    repeat (destruct p as [|x p]; [discriminate H || (injection H as <- <- <-; reflexivity)|]; injection H as <- H).
    destruct p; discriminate. }
  eexists. split; [exact D|]. eapply XLinkSpec.x_throw; [exact D|reflexivity].
Qed.

Print Assumptions throwing_linked_history.
Print Assumptions throwing_linked_frames.
Print Assumptions throwing_leaks_frames.
Print Assumptions throwing_counts_frames.
Print Assumptions throwing_linked_realises.
