(** C74: a library behaves in a sandbox as if it were linked into the program. *)
From Coq Require Import List ZArith Bool Lia.
From Verif Require Import ProtoModel ProtoSpec ProtoProof ProtoLoad ProtoProgress ProtoProps ProtoDeath ProtoLoadProgress.
From Verif Require Import FrameModel FrameSpec FrameProps LinkModel LinkSpec LinkProof.
Import ListNotations.
Open Scope Z_scope.

Section Claims.
Variable hcode : list obs -> hcmd.
Variable fcode : list obs -> fcmd.
Variable sig : Z -> layout.
Variable place : world -> Z -> Z.
Variable other : world -> memory.
Variable ks : list Z.
Variable debug : bool.
Hypothesis layouts : proper sig.
Hypothesis fresh_frames : allocates sig place.
Hypothesis calm_frames : calm sig other.
Hypothesis types : typed hcode fcode ks sig.
(** Handlers of callbacks made while the library loads do not call into it. *)
Hypothesis quiet_load : forall t k i args, In k ks -> (forall i a, ~ In (OStart i a) t) ->
  hcode (t ++ [OHandle k]) <> Call i args.

Notation replay := (replay hcode fcode sig other).
Notation hd := (host_do hcode fcode sig place other).
Notation cd := (child_do hcode fcode sig other).
Notation reaches := (reach debug false hd cd (fresh ks)).
Notation direct := (direct hcode fcode ks).

Notation rels := (reach_rel hcode fcode sig place other ks layouts fresh_frames calm_frames types quiet_load debug).
Notation decides := (reach_decided hcode fcode sig place other ks debug).

(** C74. Everything the user's code on the two sides does and sees, including
    every argument and every result, is what it would do and see if the library
    were linked into the program and called directly: the history is one of the
    direct program, or one that lacks its last observation (which one side has
    yet to make), or one after whose end the library was destroyed. *)
Theorem linked_history s : reaches s ->
  let t := seen (replay (log s)) in
  not_begun t \/
  exists st u, direct st u /\ (t = u \/ (exists o, u = t ++ [o]) \/ (t = u ++ [OQuit] /\ st = [])).
Proof.
  intros R. cbn zeta. destruct (rels s R) as [N|(st & ct & l & (F & S & T) & E)].
  - left. apply early_seen. eapply reach_early; eauto.
  - right. destruct E as [-> |(-> & -> & ->)].
    + destruct ct; cbn [told] in T.
      * destruct T as [D _]. eauto 6.
      * destruct T as [D _]. eauto 6.
      * destruct T as (a & D & _). eauto 8.
      * destruct T as (a & D & _). eauto 8.
      * eauto 8.
      * destruct T as [D _]. eauto 8.
    + destruct T as [D _]. exists [], (seen (replay l)). split; [exact D|]. right. right.
      rewrite replay_snoc. split; reflexivity.
Qed.

Lemma in_progress_app t u : in_progress (t ++ u) = in_progress t + in_progress u.
Proof. induction t as [|o t IH]; cbn [app in_progress]; [reflexivity|]. destruct o; rewrite IH; lia. Qed.
Fixpoint fns (st : list doing) : Z :=
  match st with [] => 0 | Fn _ :: r => fns r + 1 | Handling _ :: r => fns r end.
Lemma served_progress done : in_progress (served done) = 0.
Proof. induction done as [|[k r] done IH]; cbn; auto. Qed.
Lemma direct_progress st t : direct st t -> in_progress t = fns st.
Proof.
  induction 1; rewrite ?in_progress_app; cbn [in_progress fns] in *; try lia.
  - apply served_progress.
  - rewrite in_progress_app. cbn. assert (X : in_progress (l1 ++ l2) = 0) by (rewrite <- H0; apply served_progress).
    rewrite in_progress_app in X. lia.
Qed.
Lemma running_fns st : Z.of_nat (length (running st)) = fns (plain st).
Proof. induction st as [|[i b|k] st IH]; cbn [running flat_map app length plain map fns] in *; [reflexivity| |exact IH].
  unfold running, plain in IH. rewrite <- IH. lia. Qed.

Lemma mark_apart b p fs : spread sig fs -> spread sig (mark b p fs).
Proof.
  intros S. induction S as [|f fs F S IH]; [constructor|]. cbn [mark map]. constructor; auto.
  apply Forall_forall. intros g G. apply in_map_iff in G as (g0 & <- & G0). rewrite Forall_forall in F.
  specialize (F g0 G0). intros x X Y. apply (F x).
  - destruct (Z.eqb_spec (f_at f) b) as [E|]; auto. unfold within in *. cbn in X. rewrite E. exact X.
  - destruct (Z.eqb_spec (f_at g0) b) as [E|]; auto. unfold within in *. cbn in Y. rewrite E. exact Y.
Qed.
Lemma release_apart b fs : spread sig fs -> spread sig (release b fs).
Proof.
  intros S. induction S as [|f fs F S IH]; [constructor|]. cbn [release filter].
  destruct (negb (f_at f =? b)); [|exact IH]. constructor; auto.
  apply Forall_forall. intros g G. apply filter_In in G as [G _]. rewrite Forall_forall in F. auto.
Qed.
Lemma decided_spread l : all_decided hcode fcode sig place other l -> spread sig (frames (replay l)).
Proof.
  induction l as [|e l IH] using rev_ind; intros H; [constructor|].
  specialize (IH (all_decided_app _ _ _ _ _ _ _ H)). specialize (H l e [] eq_refl). rewrite replay_snoc.
  destruct e; cbn [effect meanwhile note frames seen]; auto using mark_apart, release_apart.
  - cbn in H. unfold host_do in H. destruct (hcode (seen (replay l))); [|exact IH]. injection H as -> <-.
    cbn [frames]. apply place_spread; auto.
  - destruct (fcode (seen (replay l))); [exact IH|]. cbn [frames]. apply mark_apart. exact IH.
Qed.
Lemma early_frames l : Forall early l -> all_decided hcode fcode sig place other l ->
  Z.of_nat (length (frames (replay l))) = in_progress (seen (replay l)).
Proof.
  induction l as [|e l IH] using rev_ind; intros E H; [reflexivity|].
  apply Forall_app in E as [E1 E2]. inversion E2 as [|x y Ee _]; subst.
  specialize (IH E1 (all_decided_app _ _ _ _ _ _ _ H)). specialize (H l e [] eq_refl). rewrite replay_snoc.
  destruct e; cbn in Ee; try contradiction; cbn [effect meanwhile note frames seen];
    rewrite ?in_progress_app; cbn [in_progress]; try (rewrite IH; lia).
  destruct (hcode (seen (replay l))); [|exact IH]. cbn [frames seen length].
  rewrite in_progress_app. cbn [in_progress]. lia.
Qed.

(** C74. Argument frames: no two overlap, there are exactly as many as calls in
    progress, so none is left over once every call has returned. *)
Theorem linked_frames s : reaches s ->
  let w := replay (log s) in
  ForallOrdPairs (apart sig) (frames w) /\ Z.of_nat (length (frames w)) = in_progress (seen w).
Proof.
  intros R. cbn zeta. split; [apply decided_spread, decides; exact R|].
  destruct (rels s R) as [N|(st & ct & l & (F & S & T) & E)].
  - apply early_frames; [|apply decides; exact R].
    eapply reach_early; eauto.
  - assert (X : Z.of_nat (length (frames (replay l))) = in_progress (seen (replay l))).
    { rewrite F. destruct ct; cbn [told all_frames length] in *.
      - destruct T as [D _]. rewrite (direct_progress _ _ D). apply running_fns.
      - destruct T as [D _]. rewrite (direct_progress _ _ D). apply running_fns.
      - destruct T as (a & D & _). apply direct_progress in D. rewrite in_progress_app in D. cbn in D.
        pose proof (running_fns st). lia.
      - destruct T as (a & D & _). apply direct_progress in D. rewrite in_progress_app in D. cbn in D.
        pose proof (running_fns st). lia.
      - apply direct_progress in T. rewrite in_progress_app in T. cbn in T. pose proof (running_fns st). lia.
      - destruct T as [T _]. apply direct_progress in T. rewrite in_progress_app in T. cbn in T.
        pose proof (running_fns st). lia. }
    destruct E as [-> |(-> & _ & _)]; [exact X|].
    rewrite replay_snoc. cbn [effect meanwhile note frames seen]. rewrite in_progress_app. cbn [in_progress]. lia.
Qed.

Notation rch := (reach debug false hd cd).
Lemma step_log s s' : step debug false hd cd s s' -> log s' = log s \/ exists e, log s' = log s ++ [e].
Proof.
  intros St. destruct St as [f a a' H|f a a' H]; [apply host_decides with (child_do := cd) in H|apply child_decides with (host_do := hd) in H];
    destruct H as [H|(e & H & _)]; eauto.
Qed.
Lemma reach_log s s' : rch s s' -> exists x, log s' = log s ++ x.
Proof.
  intros R. induction R as [|s1 s2 R (x & IH) St]; [exists []; rewrite app_nil_r; reflexivity|].
  destruct (step_log _ _ St) as [E|(e & E)]; rewrite E, IH; [eauto|]. rewrite <- app_assoc. eauto.
Qed.
Lemma crossing s s' : rch s s' -> (length (log s) < length (log s'))%nat ->
  exists s1 e, rch s s1 /\ rch s1 s' /\ log s1 = log s ++ [e].
Proof.
  intros R. induction R as [|s1 s2 R IH St]; intros L; [lia|].
  destruct (Nat.lt_ge_cases (length (log s)) (length (log s1))) as [H|H].
  { destruct (IH H) as (s3 & e & A & B & C). exists s3, e. split; [exact A|]. split; [|exact C]. econstructor; eauto. }
  destruct (reach_log _ _ R) as (x & E). rewrite E, app_length in H. destruct x; [|cbn in H; lia].
  rewrite app_nil_r in E. destruct (step_log _ _ St) as [E2|(e & E2)]; [rewrite E2, E in L; lia|].
  exists s2, e. split; [econstructor; eauto|]. split; [constructor|]. congruence.
Qed.
Lemma ended_quit s : reaches s -> hpc s = HEnd -> In EQuit (log s).
Proof.
  intros R H.
  destruct (All_reach debug hd cd (nonnull hcode fcode sig place other fresh_frames) ks
    (LinkProof.quiet hcode fcode sig place other ks quiet_load) s R) as [L|(c0 & LS & HI)].
  - destruct L; cbn in H; unfold basew, base in *; cases; subst; try discriminate.
    match goal with [ E : log s = _ |- _ ] => rewrite E end. apply in_or_app. right. left. reflexivity.
  - destruct HI; cbn in H; unfold waiting in *; cases; subst; try discriminate; apply in_or_app; right; left; reflexivity.
Qed.
Lemma invoked_begun l : begun (seen (replay l)) -> exists i b, In (EInvoke i b) l.
Proof. intros (i & a & B). eapply starts_in; eauto. Qed.
Lemma quit_seen l : In EQuit l -> In OQuit (seen (replay l)).
Proof.
  induction l as [|e l IH] using rev_ind; [intros []|]. intros H.
  destruct (seen_prefix hcode fcode sig other l e) as (x & E). apply in_app_or in H as [H|[->|[]]].
  - rewrite E. apply in_or_app. left. auto.
  - rewrite replay_snoc. apply in_or_app. right. left. reflexivity.
Qed.
Lemma direct_no_quit st t : direct st t -> ~ In OQuit t.
Proof.
  assert (N : forall done, ~ In OQuit (served done)).
  { intros done X. apply in_flat_map in X as ([k r] & _ & X). cbn in X. intuition discriminate. }
  induction 1; rewrite ?in_app_iff; cbn [In]; try (intuition discriminate).
  - apply N.
  - specialize (N done). rewrite H0, in_app_iff in N. rewrite in_app_iff. cbn. intuition discriminate.
Qed.
Lemma next_event s : reaches s -> begun (seen (replay (log s))) -> ~ In OQuit (seen (replay (log s))) ->
  exists s' o, rch s s' /\ reaches s' /\ seen (replay (log s')) = seen (replay (log s)) ++ [o].
Proof.
  intros R B Q. destruct (invoked_begun _ B) as (i & b & IV).
  destruct (calls_make_progress debug hd cd ks (nonnull hcode fcode sig place other fresh_frames)
    (LinkProof.quiet hcode fcode sig place other ks quiet_load) s i b R IV) as (s' & R' & X).
  { intros E. apply Q, quit_seen, ended_quit; assumption. }
  assert (Y : exists s1 e, rch s s1 /\ log s1 = log s ++ [e]).
  { destruct X as [X|X]; [destruct (crossing _ _ R' X) as (s1 & e & A & _ & C); eauto|].
    destruct (reach_log _ _ R') as (x & E). destruct x as [|e x].
    - exfalso. apply Q, quit_seen. rewrite app_nil_r in E. rewrite <- E. apply ended_quit; auto.
      eapply reach_trans; eauto.
    - destruct (crossing _ _ R') as (s1 & e1 & A & _ & C); [rewrite E, app_length; cbn; lia|]. eauto. }
  destruct Y as (s1 & e & R1 & E1).
  assert (R2 : reaches s1) by (eapply reach_trans; eauto).
  pose proof (seen_length _ _ _ _ _ _ (decides s R)) as L0. pose proof (seen_length _ _ _ _ _ _ (decides s1 R2)) as L1.
  destruct (seen_prefix hcode fcode sig other (log s) e) as (x & Ex). rewrite <- E1 in Ex.
  rewrite Ex, E1, !app_length in L1. cbn in L1. destruct x as [|o [|o' x]]; cbn in L1; try lia.
  exists s1, o. auto.
Qed.
Lemma begun_app t u : begun t -> begun (t ++ u).
Proof. intros (i & a & B). exists i, a. apply in_or_app. auto. Qed.
Lemma begun_not t : begun t -> ~ not_begun t.
Proof. intros (i & a & B) N. exact (N _ B). Qed.

(** One step of the direct program. *)
Lemma realise_step s st a b st1 : reaches s ->
  let t := seen (replay (log s)) in
  begun t -> direct st t -> dstep hcode fcode st t a b st1 -> direct st1 (t ++ [a; b]) ->
  exists s', rch s s' /\ reaches s' /\ seen (replay (log s')) = t ++ [a; b].
Proof.
  intros R t B D St D1.
  destruct (next_event s R B (direct_no_quit _ _ D)) as (s1 & o & R1 & R1' & E1). fold t in E1.
  assert (X : exists o', direct st1 (t ++ [o; o']) /\ o = a /\ o' = b).
  { destruct (linked_history s1 R1') as [N|(st2 & u & D2 & X)]; rewrite E1 in *.
    - destruct (begun_not _ (begun_app _ [o] B) N).
    - destruct X as [<-|[(o' & ->)|(X & ->)]].
      + destruct (parity _ _ _ _ _ _ _ D D2).
      + exists o'. rewrite <- app_assoc in D2. cbn [app] in D2.
        destruct (direct_det hcode fcode sig ks types quiet_load 2 t [o; o'] [a; b] st st2 st1 eq_refl eq_refl B D D2 D1) as [E ->].
        injection E as -> ->. auto.
      + apply app_inj_tail in X as [<- ->].
        assert (Hq : exists r, hcode t = Give r).
        { assert (L : exists l, log s1 = l ++ [EQuit] /\ seen (replay l) = t).
          { destruct (rels s1 R1') as [N|(st3 & ct & l & (F & S & T) & E)].
            - exfalso. destruct (invoked_begun (log s1)) as (i & b' & IV); [rewrite E1; apply begun_app; exact B|].
              exact (N _ _ IV).
            - destruct E as [E|(E & _ & _)].
              + subst l. exfalso. assert (Z : exists st' x, direct st' (t ++ OQuit :: x)).
                { destruct ct; cbn [told] in T; rewrite E1 in T.
                  - destruct T as [T _]. eauto.
                  - destruct T as [T _]. eauto.
                  - destruct T as (y & T & _). rewrite <- app_assoc in T. eauto.
                  - destruct T as (y & T & _). rewrite <- app_assoc in T. eauto.
                  - rewrite <- app_assoc in T. eauto.
                  - destruct T as [T _]. rewrite <- app_assoc in T. eauto. }
                destruct Z as (st' & x & Z). apply (direct_no_quit _ _ Z). apply in_or_app. right. left. reflexivity.
              + exists l. split; [exact E|]. rewrite E, replay_snoc in E1. cbn in E1. apply app_inj_tail in E1 as [E1 _]. exact E1. }
          destruct L as (l & L1 & L2).
          pose proof (user_code_decides debug hd cd ks s1 l EQuit [] R1' L1) as (r & Hr).
          unfold host_do in Hr. rewrite L2 in Hr. destruct (hcode t) as [|r'] eqn:Hc; [discriminate|]. eauto. }
        destruct Hq as (r & Hq).
        assert (E0 : st = []) by (symmetry; eapply direct_same_stack; eauto).
        rewrite E0 in St. inversion St; subst; congruence. }
  destruct X as (o' & _ & -> & ->).
  assert (Q1 : ~ In OQuit (seen (replay (log s1)))).
  { rewrite E1. intros Q. apply (direct_no_quit _ _ D1). apply in_app_or in Q as [Q|[Q|[]]]; apply in_or_app; [auto|].
    right. left. exact Q. }
  destruct (next_event s1 R1') as (s2 & o & R2 & R2' & E2); [rewrite E1; apply begun_app; exact B|exact Q1|].
  rewrite E1, <- app_assoc in E2. cbn [app] in E2.
  exists s2. split; [eapply reach_trans; eauto|]. split; [exact R2'|]. rewrite E2. do 2 f_equal.
  destruct (linked_history s2 R2') as [N|(st2 & u & D2 & X)]; rewrite E2 in *.
  - destruct (begun_not _ (begun_app _ [a; o] B) N).
  - destruct X as [<-|[(o' & ->)|(X & ->)]].
    + destruct (direct_det hcode fcode sig ks types quiet_load 2 t [a; o] [a; b] st st2 st1 eq_refl eq_refl B D D2 D1) as [E _].
      injection E as ->. reflexivity.
    + apply direct_even in D2 as (m & D2). apply direct_even in D as (n & D). rewrite !app_length in D2. cbn in D2. lia.
    + exfalso. replace (t ++ [a; o]) with ((t ++ [a]) ++ [o]) in X by (rewrite <- app_assoc; reflexivity).
      apply app_inj_tail in X as [<- _]. apply (parity _ _ _ _ _ _ _ D D2).
Qed.

(** C74. Everything the direct program could go on to do, the sandboxed one can:
    from a state whose history is [t], every continuation [u] of [t] that the
    direct program has can be reached. *)
Theorem linked_realises s st st' u : reaches s ->
  let t := seen (replay (log s)) in
  begun t -> direct st t -> direct st' (t ++ u) ->
  exists s', rch s s' /\ seen (replay (log s')) = t ++ u.
Proof.
  intros R t B D D'. remember (length u) as n eqn:L. revert s st u R t B D D' L.
  induction n as [n IH] using lt_wf_ind. intros s st u R t B D D' L.
  destruct u as [|x u'] eqn:Eu; [exists s; split; [constructor|rewrite app_nil_r; reflexivity]|].
  rewrite <- Eu in *.
  destruct (first_step hcode fcode sig ks types quiet_load n t u st st') as (a & b & v & st1 & E & St & D1); auto; [subst u; discriminate|].
  destruct (realise_step s st a b st1 R B D St D1) as (s1 & R1 & R1' & E1). fold t in E1.
  destruct (IH (length v)) with (s := s1) (st := st1) (u := v) as (s2 & R2 & E2); auto.
  - subst n. rewrite E. cbn. lia.
  - rewrite E1. apply begun_app. exact B.
  - rewrite E1. exact D1.
  - rewrite E1, <- app_assoc. cbn [app]. rewrite <- E. exact D'.
  - exists s2. split; [eapply reach_trans; eauto|]. rewrite E2, E1, <- app_assoc, E. reflexivity.
Qed.
End Claims.

(** Libraries that make no callback while they are loaded. *)
Section Plain.
Variable hcode : list obs -> hcmd.
Variable fcode : list obs -> fcmd.
Variable sig : Z -> layout.
Variable place : world -> Z -> Z.
Variable other : world -> memory.
Variable debug : bool.
Hypothesis layouts : proper sig.
Hypothesis fresh_frames : allocates sig place.
Hypothesis calm_frames : calm sig other.
Hypothesis types : typed hcode fcode [] sig.

Notation replay := (replay hcode fcode sig other).
Notation hd := (host_do hcode fcode sig place other).
Notation cd := (child_do hcode fcode sig other).
Notation reaches := (reach debug false hd cd (fresh [])).
Notation direct := (direct hcode fcode []).

Lemma no_load t k i args : In k [] -> (forall i a, ~ In (OStart i a) t) -> hcode (t ++ [OHandle k]) <> Call i args.
Proof. intros []. Qed.
Lemma direct_begins st t : direct st t ->
  (t = [] /\ st = []) \/ exists i args u, hcode [] = Call i args /\ t = OCall i args :: OStart i args :: u.
Proof.
  induction 1 as [done K A|done l1 l2 i args K E H A|st t i args D IH T H|i st t k D IH H|k st t r D IH H|i st t v D IH H].
  - destruct done; [auto|discriminate].
  - destruct done; [|discriminate]. symmetry in E. apply app_eq_nil in E as [-> ->]. right. exists i, args, []. auto.
  - right. destruct IH as [[-> ->]|(i' & a' & u & E & ->)]; [exists i, args, []; auto|]. exists i', a'. cbn. eauto.
  - right. destruct IH as [[_ E]|(i' & a' & u & E & ->)]; [discriminate|]. exists i', a'. cbn. eauto.
  - right. destruct IH as [[_ E]|(i' & a' & u & E & ->)]; [discriminate|]. exists i', a'. cbn. eauto.
  - right. destruct IH as [[_ E]|(i' & a' & u & E & ->)]; [discriminate|]. exists i', a'. cbn. eauto.
Qed.
Lemma seq_begins c0 st ct l : load_start [] c0 -> seq hd cd c0 (st, ct, l) ->
  (l = [] /\ st = [] /\ ct = InHost) \/ (exists i b, l = [EReq i b] /\ st = [] /\ ct = Requested i b)
  \/ exists i b x, l = EReq i b :: EInvoke i b :: x.
Proof.
  intros LS Q. remember (st, ct, l) as c eqn:E. revert st ct l E. induction Q as [|c c' Q IH St]; intros st ct l E.
  - destruct LS as (done & K & [-> |(i & b & l' & -> & l1 & l2 & E1 & E2)]); destruct done; try discriminate;
      injection E as <- <- <-; auto.
    symmetry in E1. apply app_eq_nil in E1 as [-> ->]. right. left. exists i, b. auto.
  - subst c'. destruct c as [[st1 ct1] l1].
    destruct (IH _ _ _ eq_refl) as [(-> & -> & ->)|[(i & b & -> & -> & ->)|(i & b & x & ->)]].
    + inversion St; subst. right. left. exists i, b. auto.
    + inversion St; subst. right. right. exists i, b, []. reflexivity.
    + right. right. exists i, b. inversion St; subst; cbn; eauto.
Qed.

(** C74. Every history of the direct program is one of the sandboxed program. *)
Theorem linked_realises_all st t : direct st t -> exists s, reaches s /\ seen (replay (log s)) = t.
Proof.
  intros D. destruct (direct_begins _ _ D) as [[-> _]|(i & args & u & H & ->)].
  { exists (fresh []). split; [constructor|reflexivity]. }
  pose (b := place start i).
  assert (Hd : hd [] = HCall i b) by (unfold host_do; cbn; rewrite H; reflexivity).
  pose (s1 := Conf (Shared 0 0 0 0 0 false false false) (HLoop i b) [] CUser [KLoad []] [] [] [EReq i b]).
  assert (R1 : reaches s1).
  { eapply reach_step; [constructor|]. apply step_host with (fail := false). cbn. rewrite Hd. reflexivity. }
  pose proof (nonnull hcode fcode sig place other fresh_frames) as NN.
  pose proof (LinkProof.quiet hcode fcode sig place other [] no_load) as QQ.
  destruct (first_call_starts debug hd cd NN [] QQ s1 R1) as (s2 & l & i' & b' & R2 & I2 & _ & E2);
    [discriminate|reflexivity|intros x y [X|[]]; discriminate|].
  assert (RR2 : reaches s2) by (exact (reach_trans _ _ _ _ _ _ _ R1 R2)).
  destruct (crossing hcode fcode sig place other debug s1 s2 R2) as (s3 & e & R3 & R4 & E3).
  { destruct (reach_log hcode fcode sig place other debug s1 s2 R2) as (x & E). rewrite E, app_length. destruct x; [|cbn; lia].
    exfalso. rewrite app_nil_r, E2 in E. change (log s1) with ([] ++ [EReq i b]) in E.
    apply app_inj_tail in E as [_ E]. discriminate. }
  assert (RR3 : reaches s3) by (exact (reach_trans _ _ _ _ _ _ _ R1 R3)).
  change (log s3 = [EReq i b; e]) in E3.
  assert (IV : exists i b, e = EInvoke i b).
  { destruct (calls_are_sequential debug hd cd [] NN QQ s2 RR2) as [N|(c0 & st0 & ct & l0 & LS & Q & E)].
    - destruct (N i' b'). rewrite E2. apply in_or_app. right. left. reflexivity.
    - destruct (reach_log hcode fcode sig place other debug s3 s2 R4) as (x & E4). rewrite E3 in E4.
      destruct (seq_begins _ _ _ _ LS Q) as [(-> & _)|[(i1 & b1 & -> & -> & ->)|(i1 & b1 & y & ->)]].
      + destruct E as [E|(E & _)]; rewrite E4 in E; discriminate.
      + destruct E as [E|(_ & _ & E)]; [rewrite E4 in E|]; discriminate.
      + exists i1, b1. destruct E as [E|(E & _)]; rewrite E4 in E; cbn in E; congruence. }
  destruct IV as (i3 & b3 & ->).
  assert (SE : exists st3, direct st3 (seen (replay (log s3))) /\ begun (seen (replay (log s3)))).
  { pose proof (seen_length _ _ _ _ _ _ (reach_decided hcode fcode sig place other [] debug s3 RR3)) as L.
    assert (B : begun (seen (replay (log s3)))).
    { rewrite E3. change [EReq i b; EInvoke i3 b3] with ([EReq i b] ++ [EInvoke i3 b3]). rewrite replay_snoc.
      eexists _, _. cbn [effect seen]. apply in_or_app. right. left. reflexivity. }
    rewrite E3 in L. cbn [length] in L.
    destruct (linked_history hcode fcode sig place other [] debug layouts fresh_frames calm_frames types no_load s3 RR3)
      as [N|(st3 & v & D3 & [X|[(o & X)|(X & _)]])].
    - destruct (begun_not _ B N).
    - exists st3. rewrite X. split; [exact D3|]. rewrite <- X. exact B.
    - apply direct_even in D3 as (m & D3). rewrite X, app_length, E3, L in D3. cbn in D3. lia.
    - apply direct_even in D3 as (m & D3). rewrite E3 in X. rewrite X, app_length in L. cbn in L. lia. }
  destruct SE as (st3 & D3 & B3).
  assert (S3 : seen (replay (log s3)) = [OCall i args; OStart i args]).
  { pose proof (seen_length _ _ _ _ _ _ (reach_decided hcode fcode sig place other [] debug s3 RR3)) as L.
    rewrite E3 in L at 2. destruct (direct_begins _ _ D3) as [[X _]|(i4 & a4 & u4 & H4 & X)]; rewrite X in L; [discriminate|].
    rewrite H in H4. injection H4 as <- <-. rewrite X. destruct u4; [reflexivity|discriminate]. }
  destruct (linked_realises hcode fcode sig place other [] debug layouts fresh_frames calm_frames types no_load s3 st3 st u RR3 B3 D3)
    as (s4 & R5 & E5); [rewrite S3; exact D|].
  exists s4. split; [eapply reach_trans; eauto|]. rewrite E5, S3. reflexivity.
Qed.
End Plain.

(** ** A concrete program.  Function 1 takes two one-byte arguments, calls back and
    returns two bytes; function 2 takes three bytes.  The handler of callback 7
    calls function 2 and answers with the first byte of its result. *)
Definition demo_sig (i : Z) : layout :=
  if i =? 1 then Layout 4 (0, 2%nat) [(2, 1%nat); (3, 1%nat)] else Layout 8 (4, 2%nat) [(0, 3%nat)].
Definition started (t : list obs) : bool := existsb (fun o => match o with OStart _ _ => true | _ => false end) t.
Definition demo_h (t : list obs) : hcmd :=
  match rev t with
  | [] => Call 1 [[20]; [22]]
  | OHandle k :: r => if started r then Call 2 [[k; k + 1; k + 2]] else Give 5
  | ODone 2 (x :: _) :: _ => Give x
  | _ => Give 0
  end.
Definition demo_f (t : list obs) : fcmd :=
  match rev t with
  | OStart 1 [[a]; [b]] :: _ => Back (a + b)
  | OStart 2 [[a; b; c]] :: _ => Result [a * b; c]
  | OResume _ r :: _ => Result [r; 1]
  | _ => Result [0; 0]
  end.
(** An allocator that puts a frame after all others, and memory in which every byte
    outside the frames in transit keeps changing. *)
Definition frame_end (f : frame) : Z := Z.max 0 (f_at f + l_size (demo_sig (f_fn f))).
Definition demo_place (w : world) (i : Z) : Z := fold_right (fun f a => Z.max (frame_end f) a) 0 (frames w) + 1.
Definition holds (x : Z) (f : frame) : bool :=
  match f_phase f with
  | PRunning => false
  | _ => (f_at f <=? x) && (x <? f_at f + l_size (demo_sig (f_fn f)))
  end.
Definition demo_other (w : world) : memory :=
  fun x => if existsb (holds x) (frames w) then mem w x else mem w x + 13.

Lemma demo_layouts : proper demo_sig.
Proof.
  intros i. unfold demo_sig. destruct (i =? 1); (split; [split|cbn; lia]).
  - intros f x [<-|[<-|[<-|[]]]]; unfold in_field; cbn; lia.
  - repeat constructor; intros x; unfold in_field; cbn; lia.
  - intros f x [<-|[<-|[]]]; unfold in_field; cbn; lia.
  - repeat constructor; intros x; unfold in_field; cbn; lia.
Qed.
Lemma demo_size i : 0 < l_size (demo_sig i).
Proof. apply demo_layouts. Qed.
Lemma demo_allocates : allocates demo_sig demo_place.
Proof.
  intros w i. unfold demo_place.
  assert (P : 0 <= fold_right (fun f a => Z.max (frame_end f) a) 0 (frames w))
    by (induction (frames w) as [|f fs IH]; cbn [fold_right]; lia).
  assert (U : forall f, In f (frames w) -> frame_end f <= fold_right (fun f a => Z.max (frame_end f) a) 0 (frames w)).
  { induction (frames w) as [|g fs IH]; intros f [].
    - subst. cbn [fold_right]. lia.
    - cbn [fold_right] in *. assert (0 <= fold_right (fun f a => Z.max (frame_end f) a) 0 fs)
        by (clear; induction fs as [|x fs IH]; cbn [fold_right]; lia). specialize (IH H0 f H). lia. }
  split; [lia|]. intros f F x X Y. specialize (U f F). unfold within, frame_end in *. cbn [f_at f_fn] in *. lia.
Qed.
Lemma demo_calm : calm demo_sig demo_other.
Proof.
  intros w f x F P W. unfold demo_other.
  assert (E : existsb (holds x) (frames w) = true); [|rewrite E; reflexivity].
  apply existsb_exists. exists f. split; [exact F|]. unfold holds, within in *.
  destruct (f_phase f); [|congruence|]; apply andb_true_intro; split; lia.
Qed.
Lemma demo_typed ks : typed demo_h demo_f ks demo_sig.
Proof.
  split.
  - unfold demo_h, sized. intros t i args. destruct (rev t) as [|o r]; [intros E; injection E as <- <-; repeat constructor|].
    destruct o; try discriminate.
    + destruct (started r); [|discriminate]. intros E; injection E as <- <-. repeat constructor.
    + destruct i0 as [|[p|[p|p|]|]|p]; try discriminate. destruct v; discriminate.
  - intros st t i v _ E.
    assert (L : length v = 2%nat).
    { unfold demo_f in E. repeat match type of E with context [match ?x with _ => _ end] => destruct x; try discriminate end;
        injection E as <-; reflexivity. }
    rewrite L. unfold demo_sig. destruct (i =? 1); reflexivity.
Qed.
Lemma demo_quiet_load t k i args : In k [3] -> (forall i a, ~ In (OStart i a) t) -> demo_h (t ++ [OHandle k]) <> Call i args.
Proof.
  intros _ N. unfold demo_h. rewrite rev_app_distr. cbn [rev app].
  destruct (started (rev t)) eqn:E; [|discriminate]. exfalso. apply existsb_exists in E as (o & I & E).
  destruct o; try discriminate. apply (N i0 args0). apply in_rev. exact I.
Qed.

Notation demo_hd := (host_do demo_h demo_f demo_sig demo_place demo_other).
Notation demo_cd := (child_do demo_h demo_f demo_sig demo_other).
Notation demo_replay := (replay demo_h demo_f demo_sig demo_other).

Example demo_link_runs :
  let s := ProtoDeath.exec true false demo_hd demo_cd (ProtoDeath.rounds 100) (fresh [3]) in
  hpc s = HEnd /\ frames (demo_replay (log s)) = [] /\
  seen (demo_replay (log s)) =
    [OCall 1 [[20]; [22]]; OCallback 3; OHandle 3; OHandled 3 5; OResume 3 5;
     OStart 1 [[20]; [22]]; OCallback 42; OHandle 42;
       OCall 2 [[42; 43; 44]]; OStart 2 [[42; 43; 44]]; OReturn 2 [1806; 44]; ODone 2 [1806; 44];
     OHandled 42 1806; OResume 42 1806; OReturn 1 [1806; 1]; ODone 1 [1806; 1]; OQuit].
Proof. vm_compute. repeat split. Qed.

(** In the handler: two frames are in use, and the continuations of the direct
    program are reachable. *)
Example demo_link_nested :
  let s := ProtoDeath.exec true false demo_hd demo_cd (ProtoDeath.rounds 39) (fresh [3]) in
  hpc s = HUser /\ length (frames (demo_replay (log s))) = 1%nat /\
  begun (seen (demo_replay (log s))) /\
  exists st u, LinkSpec.direct demo_h demo_f [3] st u /\ u = seen (demo_replay (log s)).
Proof.
  cbn zeta. split; [vm_compute; reflexivity|]. split; [vm_compute; reflexivity|].
  assert (E : seen (demo_replay (log (ProtoDeath.exec true false demo_hd demo_cd (ProtoDeath.rounds 39) (fresh [3])))) =
    [OCall 1 [[20]; [22]]; OCallback 3; OHandle 3; OHandled 3 5; OResume 3 5;
     OStart 1 [[20]; [22]]; OCallback 42; OHandle 42]) by (vm_compute; reflexivity).
  split; [rewrite E; exists 1, [[20]; [22]]; cbn; auto 8|].
  eexists _, _. split; [|symmetry; exact E].
  apply (d_callback demo_h demo_f [3] 1 [] [OCall 1 [[20]; [22]]; OCallback 3; OHandle 3; OHandled 3 5; OResume 3 5; OStart 1 [[20]; [22]]] 42);
    [|reflexivity].
  apply (d_first demo_h demo_f [3] [(3, 5)] [] [OCallback 3; OHandle 3; OHandled 3 5; OResume 3 5] 1 [[20]; [22]]); try reflexivity.
  intros p k r q H. cbn [app] in H.
  repeat (destruct p as [|x p]; [discriminate H || (injection H as <- <- <-; reflexivity)|]; injection H as <- H).
  destruct p; discriminate.
Qed.

Print Assumptions linked_history.
Print Assumptions linked_frames.
Print Assumptions linked_realises.
Print Assumptions linked_realises_all.
