(** Claimed theorems about the descriptors that libraries use for themselves (C87). *)
From Coq Require Import String Ascii List ZArith Lia Bool Permutation Arith.
From Verif Require Import Base PathModel FileTreeModel FileTreeSpec RegionModel RegionSpec DispatchModel DispatchProps HostCallsModel HostCallsSpec NetProps
  ChildCallsModel EffectsModel HandleModel OwnModel OwnSpec OwnProof OwnProps GateModel GateSpec GateProof GateProps LibsModel LibsSpec LibsProof LibsProps ParProof
  UserModel UserSpec UserProof UserProps LifeModel LifeSpec LifeProof.
Import ListNotations.
Local Open Scope Z_scope.

Section HISTORY.
Variables (debug : bool) (shm size hdr : nat -> Z).
Hypothesis M : forall i, mapping_ok (shm i) (size i) (hdr i).
Local Notation heaps := (fun i => library_heap (shm i) (size i) (hdr i)).
Local Notation liferuns := (liferuns debug heaps).
Local Notation lifestep := (lifestep debug heaps).
Local Notation finv := (finv debug shm size hdr).

Lemma inv es w : liferuns es w -> exists ges, finv es w ges.
Proof. exact (liferuns_finv debug shm size hdr M es w). Qed.

Lemma request_opens_new es w i q w' evs : uruns debug heaps es w -> uallowed es w i (USays q) -> ustep debug heaps i (USays q) w = (w', UServed evs) ->
  (forall rq fd, q_msg q = Some (rq, fd) -> forall sz tk, ~ asks_for i es rq sz tk) ->
  forall u, In u (opened_in evs) -> (fresh (base w) <= u)%nat.
Proof.
  intros R Al E Nu u Iu. destruct (uruns_uinv debug shm size hdr M _ _ R) as [ges V].
  destruct (uinv_serve debug shm size hdr M es w ges i q w' _ V Al E Nu) as (g' & _ & _ & evs' & Ee & _ & FR & _). injection Ee as <-.
  unfold opened_in in Iu. apply in_flat_map in Iu as (ev & I1 & I2). destruct ev as [o on [v|]|? ?|]; try destruct I2 as [<-|[]]; try destruct I2.
  apply in_split in I1 as (l1 & l2 & X). destruct (okev_split _ _ _ evs [] l1 o on (Some v) l2 (fr_events _ _ _ _ _ _ FR) X) as [_ H].
  destruct (H v eq_refl) as [H1 _]. exact H1.
Qed.

Lemma rightful_about s hist got mine o u : rightful s hist got mine o (Some u) -> got <> Some u -> ~ found s u -> ~ In u mine -> False.
Proof.
  intros R G F Mi. remember (Some u) as on eqn:E. destruct R; try congruence; try (injection E as ->; contradiction).
  1-3: destruct H as (t & p & tail & H1 & H2 & _ & [[_ H3]|(v & H3 & H4)]); [congruence|]; apply F; exists t, p, f, tail; repeat split; congruence.
  destruct H as (t & q & tl & H1 & H2 & _ & _ & [[_ H3]|(v & H3 & H4)]); [congruence|]; apply F; exists t, q, f, tl; repeat split; congruence.
Qed.

(** C87: the shared memory of a library and the sandbox's ends of its two sockets
    stay open in the host for ever, whatever becomes of the library; the host's end of
    the first socket is open until the memory service drops the library, that of the
    second until the library is destroyed, and is closed exactly once then. *)
Theorem library_descriptors_fate es w i a b c d e : liferuns es w -> made i es a b c d e ->
  (forall u, In u [a; c; e] -> is_open w u /\ closings (base (process w)) u = 0%nat) /\
  (is_open w b /\ closings (base (process w)) b = 0%nat /\ ~ dropped i es \/ closings (base (process w)) b = 1%nat /\ dropped i es) /\
  (is_open w d /\ closings (base (process w)) d = 0%nat /\ ~ unmade i es \/ closings (base (process w)) d = 1%nat /\ unmade i es).
Proof.
  intros R Hm. destruct (inv _ _ R) as [ges V]. destruct (f_keep _ _ _ _ _ _ _ V i a b c d e Hm) as (Ka & Kc & Ke & Kb & Kd).
  assert (O : forall u, keeps ges u -> is_open w u /\ closings (base (process w)) u = 0%nat).
  { intros u K. destruct (held_facts debug shm size hdr M _ _ u (f_runs _ _ _ _ _ _ _ V) K) as (Z & _ & N & _). split; [exact N|exact Z]. }
  split; [|split].
  - intros u [<-|[<-|[<-|[]]]]; apply O; assumption.
  - destruct Kb as [(_ & K2 & K3)|(_ & K2 & _ & K4)]; [left|right; auto]. destruct (O b K3). auto.
  - destruct Kd as [(_ & K2 & K3)|(_ & K2 & _ & K4)]; [left|right; auto]. destruct (O d K3). auto.
Qed.

(** C87: none of them is ever exported, in the program's hands, or waiting for a
    handler of the program; and no two are the same. *)
Theorem library_descriptors_private es w u : liferuns es w -> internal es u ->
  (forall j, ~ exported (base (process w)) j u) /\ ~ keeps (theirs es) u /\ (forall j sends, ~ In (Some u, sends) (in_progress j (theirs es))) /\
  forall i j a b c d e a' b' c' d' e', made i es a b c d e -> made j es a' b' c' d' e' ->
    In u [a; b; c; d; e] -> In u [a'; b'; c'; d'; e'] -> i = j /\ (a, b, c, d, e) = (a', b', c', d', e') /\ NoDup [a; b; c; d; e].
Proof.
  intros R Iu. destruct (inv _ _ R) as [ges V]. pose proof (f_runs _ _ _ _ _ _ _ V) as Ru. destruct (f_int _ _ _ _ _ _ _ V u Iu) as [Ou No].
  assert (Fate : keeps ges u \/ ~ keeps ges u /\ closings (base (process w)) u = 1%nat).
  { destruct Iu as (i & a & b & c & d & e & Hm & I1). destruct (f_keep _ _ _ _ _ _ _ V i a b c d e Hm) as (Ka & Kc & Ke & Kb & Kd).
    destruct I1 as [<-|[<-|[<-|[<-|[<-|[]]]]]]; [auto| |auto| |auto].
    - destruct Kb as [(_ & _ & K)|(_ & _ & K & K')]; auto.
    - destruct Kd as [(_ & _ & K)|(_ & _ & K & K')]; auto. }
  destruct (uruns_uinv debug shm size hdr M _ _ Ru) as [gg U]. pose proof (u_core _ _ _ _ U) as C.
  split; [|split; [|split]].
  - intros j X. destruct Fate as [K|[_ K]].
    + destruct (held_facts debug shm size hdr M _ _ u Ru K) as (_ & N & _). exact (N j X).
    + destruct (exported_open debug gg _ j u (c_linv _ _ _ _ _ C) X) as [Z _]. congruence.
  - intros (X & _). exact (No X).
  - intros j sends X. rewrite <- (f_prog _ _ _ _ _ _ _ V) in X. apply (c_kept _ _ _ _ _ C u); [|exact Ou]. exists j. unfold kepts. apply in_flat_map. eexists. split; [exact X|]. left. reflexivity.
  - intros i j a b c d e a' b' c' d' e' H H' I1 I2. destruct (Nat.eq_dec i j) as [-> |D].
    + split; [reflexivity|]. split; [exact (f_once _ _ _ _ _ _ _ V j _ _ _ _ _ _ _ _ _ _ H H')|exact (ids_nodup es j a b c d e (f_ids _ _ _ _ _ _ _ V) H)].
    + destruct (ids_apart es i j a b c d e a' b' c' d' e' u (f_ids _ _ _ _ _ _ _ V) D H H' I1 I2).
Qed.

(** C87: nothing that the program or its handlers do, and no request of any
    sandbox, closes one of them or is about one of them. *)
Theorem library_descriptors_untouched es w i o w' r u : liferuns es w -> lifeallowed es w i (LUser o) -> lifestep i (LUser o) w = (w', r) -> internal es u ->
  closings (base (process w')) u = closings (base (process w)) u /\
  (is_open w u -> closings (base (process w)) u = 0%nat -> is_open w' u) /\
  (forall q evs, o = USays q -> r = LUsed (UServed evs) ->
     (forall ko new, ~ In (Asked ko (Some u) new) evs) /\ forall n, ~ In (Replied n (Some (Some u))) evs) /\
  (forall tag bytes given kept, r = LUsed (UEntered tag bytes given kept) -> given <> Some u /\ kept <> Some u).
Proof.
  intros R Al E Iu. destruct (inv _ _ R) as [ges V]. pose proof (f_runs _ _ _ _ _ _ _ V) as Ru. destruct (f_int _ _ _ _ _ _ _ V u Iu) as [Ou No].
  pose proof (allowed_more debug shm size hdr _ _ _ _ _ V Al) as Al'. cbn [LifeModel.lifestep] in E.
  destruct (ustep debug heaps i o (process w)) as [p' ru] eqn:Eu. injection E as <- <-. cbn [process].
  pose proof (finv_user debug shm size hdr M es w ges i o p' ru V Al Eu) as V'. pose proof (f_runs _ _ _ _ _ _ _ V') as Ru'. cbn [process] in Ru'.
  pose proof (opened_lt debug shm size hdr M _ _ u Ru Ou) as Lu.
  destruct (ustep_grows debug heaps i o (process w) p' ru Eu) as ((more & Cl) & _).
  assert (Fate : keeps ges u /\ keeps (ges ++ [(i, (o, ru))]) u \/ ~ keeps ges u /\ closings (base (process w)) u = 1%nat /\ closings (base p') u = 1%nat).
  { pose proof Iu as (j & a & b & c & d & e & Hm & I1). destruct (f_keep _ _ _ _ _ _ _ V j a b c d e Hm) as (Ka & Kc & Ke & Kb & Kd).
    assert (Hm' : made j (es ++ [(i, (LUser o, LUsed ru))]) a b c d e) by (apply made_user, Hm).
    destruct (f_keep _ _ _ _ _ _ _ V' j a b c d e Hm') as (Ka' & Kc' & Ke' & Kb' & Kd'). cbn [process sockets ranges] in *.
    destruct I1 as [<-|[<-|[<-|[<-|[<-|[]]]]]]; [auto| |auto| |auto].
    - destruct Kb as [(A1 & _ & K)|(A1 & _ & K & K')]; destruct Kb' as [(B1 & _ & K1)|(B1 & _ & K1 & K1')]; auto; congruence.
    - destruct Kd as [(A1 & _ & K)|(A1 & _ & K & K')]; destruct Kd' as [(B1 & _ & K1)|(B1 & _ & K1 & K1')]; auto; congruence. }
  assert (Rc : forall q, o = USays q -> received (own (lib (base (process w)) i)) q <> Some u).
  { intros q _ X. unfold received in X. destruct (q_msg q) as [[rq [f|]]|]; try discriminate. injection X as <-. cbn in Lu. lia. }
  split; [|split; [|split]].
  - destruct Fate as [[K K']|(_ & K & K')]; [|congruence].
    destruct (held_facts debug shm size hdr M _ _ u Ru K) as (Z & _). destruct (held_facts debug shm size hdr M _ _ u Ru' K') as (Z' & _). congruence.
  - intros _ Z. destruct Fate as [[_ K']|(_ & K & _)]; [|congruence]. destruct (held_facts debug shm size hdr M _ _ u Ru' K') as (_ & _ & N & _). exact N.
  - intros q evs -> Er. injection Er as ->.
    assert (Not : forall ko new, ~ In (Asked ko (Some u) new) evs).
    { assert (Beside : (forall rq fd, q_msg q = Some (rq, fd) -> forall sz tk, ~ asks_for i ges rq sz tk) -> forall ko new, ~ In (Asked ko (Some u) new) evs).
      { intros Nu ko new X. destruct (request_beside_handlers debug shm size hdr M ges (process w) i q p' _ Ru Al' Eu Nu) as (evs' & Ee & H & _). injection Ee as <-.
        apply in_split in X as (l1 & l2 & X). destruct (H l1 ko (Some u) new l2 X) as [Ri Hu]. destruct (Hu u eq_refl) as (Nk & _ & _).
        destruct Fate as [[K _]|(_ & K & _)]; [exact (Nk K)|].
        destruct (uruns_uinv debug shm size hdr M _ _ Ru) as [gg U]. pose proof (u_core _ _ _ _ U) as C.
        assert (Nf : forall j, ~ exported (base (process w)) j u) by (apply (library_descriptors_private es w u R Iu)).
        assert (Nfi : ~ found (own (lib (base (process w)) i)) u) by apply (Nf i).
        assert (Nm : ~ In u (opened_in l1)).
        { intros Y. pose proof (request_opens_new ges (process w) i q p' evs Ru Al' Eu Nu u) as Ho.
          assert (Y' : In u (opened_in evs)) by (rewrite X; unfold opened_in; rewrite flat_map_app; apply in_or_app; left; exact Y). specialize (Ho Y'). lia. }
        exact (rightful_about _ _ _ _ _ u Ri (Rc q eq_refl) Nfi Nm). }
      destruct (q_msg q) as [[rq fd]|] eqn:Qm; [|apply Beside; discriminate].
      destruct (for_user_dec (registered i ges) rq) as [(sz & tk & U)|U].
      - destruct (handler_called debug shm size hdr M ges (process w) i q p' _ rq fd sz tk Ru Al' Eu Qm U) as [H1 H2].
        pose proof Al' as (_ & Wd & _). specialize (Wd _ _ Qm). destruct (fits_dec (shm i) (size i) (hdr i) (M i) rq Wd sz) as [F|F].
        + destruct (H1 F) as [Er _]. discriminate.
        + destruct (H2 F) as [(f & Er) _]. injection Er as ->. intros ko new X. apply in_app_or in X as [X|[X|[]]]; [|unfold answer in X; destruct (q_sends q); discriminate].
          unfold shutting in X. destruct (received _ _) as [v|] eqn:Rv; [|destruct X]. destruct X as [X|[]]. injection X as _ -> _. exact (Rc q eq_refl Rv).
      - apply Beside. intros rq' fd' [= <- <-]. exact U. }
    split; [exact Not|]. intros n X.
    assert (Beside : (forall rq fd, q_msg q = Some (rq, fd) -> forall sz tk, ~ asks_for i ges rq sz tk) -> False).
    { intros Nu. destruct (request_beside_handlers debug shm size hdr M ges (process w) i q p' _ Ru Al' Eu Nu) as (evs' & Ee & _ & H). injection Ee as <-.
      destruct (q_msg q) as [x|]; [|subst evs; destruct X]. destruct (q_sends q).
      - destruct H as (l1 & m & fd & l2 & -> & A1 & A2 & Hx).
        assert (Only : forall l, answers_in l = [] -> ~ In (Replied n (Some (Some u))) l).
        { intros l Hl Y. assert (Z : In (Replied n (Some (Some u))) (answers_in l)) by (apply filter_In; split; [exact Y|reflexivity]). rewrite Hl in Z. destruct Z. }
        apply in_app_or in X as [X|[X|X]]; [exact (Only l1 A1 X)| |exact (Only l2 A2 X)].
        injection X as _ ->. destruct (Hx _ eq_refl) as (v & [= <-] & _ & Y). unfold closed_in in Y. apply in_flat_map in Y as (ev & Y1 & Y2).
        destruct ev as [ko on new|? ?|]; [|destruct Y2|destruct Y2]. destruct ko; try destruct Y2. subst. eapply Not. apply in_or_app. right. right. exact Y1. destruct H.
      - assert (Z : In (Replied n (Some (Some u))) (answers_in evs)) by (apply filter_In; split; [exact X|reflexivity]). rewrite H in Z. destruct Z as [Z|[]]. discriminate. }
    destruct (q_msg q) as [[rq fd]|] eqn:Qm; [|apply Beside; discriminate].
    destruct (for_user_dec (registered i ges) rq) as [(sz & tk & U)|U].
    + destruct (handler_called debug shm size hdr M ges (process w) i q p' _ rq fd sz tk Ru Al' Eu Qm U) as [H1 H2].
      pose proof Al' as (_ & Wd & _). specialize (Wd _ _ Qm). destruct (fits_dec (shm i) (size i) (hdr i) (M i) rq Wd sz) as [F|F].
      * destruct (H1 F) as [Er _]. discriminate.
      * destruct (H2 F) as [(f & Er) _]. injection Er as ->. apply in_app_or in X as [X|[X|[]]].
        -- unfold shutting in X. destruct (received _ _); [destruct X as [X|[]]; discriminate|destruct X].
        -- unfold answer in X. destruct (q_sends q); discriminate.
    + apply Beside. intros rq' fd' [= <- <-]. exact U.
  - intros tag bytes given kept Er. injection Er as ->.
    destruct (handler_called_only debug shm size hdr M ges (process w) i o p' _ _ _ _ _ Ru Al' Eu eq_refl) as (q & rq & fd & sz & tk & -> & Qm & U & F & _).
    destruct (handler_called debug shm size hdr M ges (process w) i q p' _ rq fd sz tk Ru Al' Eu Qm U) as [H1 _]. destruct (H1 F) as [Er _]. injection Er as _ _ -> ->.
    pose proof (Rc q eq_refl). destruct tk; split; auto; discriminate.
Qed.

(** C87: what the program opened, or its handlers were given, is as C86 says, with
    libraries made and destroyed at any time: closed, once, or in the program's hands,
    or found in exactly one library. *)
Theorem program_descriptor_in_one_place es w u : liferuns es w ->
  (exists i n, In (i, (UDo (Open n), UDid (Opened u))) (theirs es)) \/ (exists i q tag bytes kept, In (i, (USays q, UEntered tag bytes (Some u) kept)) (theirs es)) ->
  ~ internal es u /\
  ((closings (base (process w)) u = 1%nat /\ ~ keeps (theirs es) u /\ forall i, ~ exported (base (process w)) i u) \/
   (closings (base (process w)) u = 0%nat /\ keeps (theirs es) u /\ forall i, ~ exported (base (process w)) i u) \/
   (closings (base (process w)) u = 0%nat /\ ~ keeps (theirs es) u /\ exists i, exported (base (process w)) i u /\ forall j, exported (base (process w)) j u -> j = i)).
Proof.
  intros R O. destruct (inv _ _ R) as [ges V].
  assert (Op : opened (handled (theirs es)) u).
  { destruct O as [(i & n & I1)|(i & q & tag & bytes & kept & I1)]; eexists; unfold handled; apply in_flat_map; (eexists; split; [exact I1|]); left; reflexivity. }
  split; [intros X; exact (proj2 (f_int _ _ _ _ _ _ _ V u X) Op)|].
  assert (O' : (exists i n, In (i, (UDo (Open n), UDid (Opened u))) ges) \/ (exists i q tag bytes kept, In (i, (USays q, UEntered tag bytes (Some u) kept)) ges)).
  { destruct O as [(i & n & I1)|(i & q & tag & bytes & kept & I1)]; [left; exists i, n|right; exists i, q, tag, bytes, kept]; apply (f_sub _ _ _ _ _ _ _ V), I1. }
  pose proof (handler_descriptor_in_one_place debug shm size hdr M ges _ u (f_runs _ _ _ _ _ _ _ V) O') as T.
  assert (K : keeps ges u <-> keeps (theirs es) u) by (split; intros X; [exact (keeps_back debug shm size hdr _ _ _ u V Op X)|exact (keeps_of debug shm size hdr _ _ _ u V X)]).
  rewrite <- K. exact T.
Qed.

(** C87: making a library changes nothing that any library finds, the memory
    service dropping one neither, and destroying one nothing that another finds. *)
Theorem making_changes_no_export es w i o w' r j p tail u : liferuns es w -> lifeallowed es w i o -> lifestep i o w = (w', r) ->
  match o with LUser _ => False | LStop => j <> i | _ => True end ->
  (finds (base (process w')) j p tail u <-> finds (base (process w)) j p tail u).
Proof.
  intros R Al E D. destruct (inv _ _ R) as [ges V]. destruct o as [o|n1 n2 n3 n4 n5| |].
  - destruct D.
  - destruct (finv_start debug shm size hdr M es w ges i _ _ _ _ _ w' r V Al E) as (_ & _ & _ & F & _). apply F.
  - destruct (finv_stop debug shm size hdr M es w ges i w' r V Al E) as (_ & F & _). apply F, D.
  - destruct (finv_forget debug shm size hdr M es w ges i w' r V Al E) as (_ & F & _). apply F.
Qed.

(** C87: nothing ends in an assertion, exception or undefined behaviour; no close
    that the library asks for fails; a library that exists has its exports. *)
Theorem making_never_breaks es w : liferuns es w ->
  (forall i o r, In (i, (o, r)) es -> r <> LBroke /\ r <> LNothing /\ r <> LUsed UBroke /\ r <> LUsed (UDid Aborted)) /\
  (forall n c, In (n, c) (closed (base (process w))) -> c <> None) /\
  forall i a b c d e, made i es a b c d e -> ~ unmade i es -> trees (base (process w)) i <> None.
Proof.
  intros R. split; [|split].
  - induction R as [|es w i o w' r R IH Al E]; [intros i o r []|]. intros i' o' r' I1. apply in_app_or in I1 as [I1|[I1|[]]]; [eauto|]. injection I1 as <- <- <-.
    destruct (inv _ _ R) as [ges V]. destruct o as [o|n1 n2 n3 n4 n5| |].
    + pose proof (liferuns_snoc _ _ _ _ _ _ _ _ R Al E) as R'. cbn [LifeModel.lifestep] in E. destruct (ustep debug heaps i o (process w)) as [p' ru] eqn:Eu. injection E as <- <-.
      pose proof (finv_user debug shm size hdr M es w ges i o p' ru V Al Eu) as V'.
      destruct (handlers_never_break debug shm size hdr M _ _ (f_runs _ _ _ _ _ _ _ V')) as (H & _). destruct (H i o) as [H1 H2].
      assert (I1 : In (i, (o, ru)) (ges ++ [(i, (o, ru))])) by (apply in_or_app; right; left; reflexivity).
      repeat split; try discriminate; intros [= ->]; tauto.
    + destruct (finv_start debug shm size hdr M es w ges i _ _ _ _ _ w' r V Al E) as ((a & b & c & d & e & ->) & _). repeat split; discriminate.
    + destruct (finv_stop debug shm size hdr M es w ges i w' r V Al E) as (-> & _). repeat split; discriminate.
    + destruct (finv_forget debug shm size hdr M es w ges i w' r V Al E) as (-> & _). repeat split; discriminate.
  - destruct (inv _ _ R) as [ges V]. destruct (handlers_never_break debug shm size hdr M _ _ (f_runs _ _ _ _ _ _ _ V)) as (_ & H & _). exact H.
  - destruct (inv _ _ R) as [ges V]. intros i a b c d e _ N. exact (f_tree _ _ _ _ _ _ _ V i N).
Qed.

(** The three of each library that are never closed. *)
Local Definition lasting (es : lifehistory) : list nat :=
  flat_map (fun e => match snd e with (LStart _ _ _ _ _, LStarted a b c d e) => [a; c; e] | _ => [] end) es.
Lemma lasting_nodup es : NoDup (ids es) -> NoDup (lasting es) /\ forall u, In u (lasting es) -> In u (ids es).
Proof.
  induction es as [|[i [o r]] es IH]; intros N; [split; [constructor|intros u []]|].
  cbn [lasting ids flat_map snd] in *. fold (ids es) in *. fold (lasting es) in *.
  destruct (IH (NoDup_app_r' _ _ N)) as [I1 I2].
  destruct o; try (cbn [app] in *; split; [exact I1|exact I2]). destruct r; try (cbn [app] in *; split; [exact I1|exact I2]).
  rename shm1 into k1, rpc_child0 into k3, sock_child0 into k5. split.
  - pose proof (NoDup_app_l _ _ N) as N5. inversion N5 as [|? ? A1 N4]; subst. inversion N4 as [|? ? A2 N3]; subst. inversion N3 as [|? ? A3 N2]; subst. cbn in A1, A3.
    cbn [app]. constructor; [|constructor; [|constructor; [|exact I1]]].
    + intros [X|[X|X]]; [subst; tauto|subst; tauto|]. apply (nodup_twice _ _ k1 N); [left; reflexivity|apply I2, X].
    + intros [X|X]; [subst; tauto|]. apply (nodup_twice _ _ k3 N); [cbn; tauto|apply I2, X].
    + intros X. apply (nodup_twice _ _ k5 N); [cbn; tauto|apply I2, X].
  - intros u X. apply in_app_or in X as [X|X]; apply in_or_app; [left; cbn in *; tauto|right; apply I2, X].
Qed.
Lemma lasting_made es u : In u (lasting es) -> exists i a b c d e, made i es a b c d e /\ In u [a; c; e].
Proof.
  unfold lasting. intros X. apply in_flat_map in X as ([i [o r]] & I1 & X). cbn [snd] in X. destruct o; try destruct X. destruct r; try destruct X.
  all: do 6 eexists; (split; [do 5 eexists; exact I1|]); cbn; tauto.
Qed.
Lemma lasting_length es w : liferuns es w -> length (lasting es) = (3 * makings es)%nat.
Proof.
  intros R. assert (H : forall i o r, In (i, (o, r)) es -> match o with LStart _ _ _ _ _ => exists a b c d e, r = LStarted a b c d e | _ => True end).
  { induction R as [|es w i o w' r R IH Al E]; [intros i o r []|]. intros i' o' r' I1. apply in_app_or in I1 as [I1|[I1|[]]]; [eapply IH, I1|]. injection I1 as <- <- <-.
    destruct (inv _ _ R) as [ges V]. destruct o as [o|n1 n2 n3 n4 n5| |]; auto. apply (finv_start debug shm size hdr M es w ges i _ _ _ _ _ w' r V Al E). }
  clear R w. induction es as [|[i [o r]] es IH]; [reflexivity|]. unfold makings. cbn [lasting flat_map filter snd]. fold (lasting es).
  rewrite app_length, IH by (intros i' o' r' I1; apply (H i'), in_cons, I1). pose proof (H i o r (or_introl eq_refl)) as X.
  destruct o; cbn [length]; fold (makings es); try lia. destruct X as (a & b & c & d & e & ->). unfold makings. cbn [length]. lia.
Qed.

(** C87, limit: because they stay open, a process whose descriptors are numbered
    below [limit] makes at most a third of [limit] libraries in all, however many of
    them it destroys. *)
Theorem libraries_ever_made es w limit : liferuns es w -> (forall n u, lookup n (table (base (process w))) = Some u -> n < limit) -> 0 <= limit ->
  3 * Z.of_nat (makings es) <= limit.
Proof.
  intros R L L0. destruct (inv _ _ R) as [ges V]. destruct (uruns_uinv debug shm size hdr M _ _ (f_runs _ _ _ _ _ _ _ V)) as [gg U].
  destruct (table_nodup debug gg _ (c_linv _ _ _ _ _ (u_core _ _ _ _ U))) as (N1 & N2 & N3). set (t := table (base (process w))) in *.
  destruct (lasting_nodup es (f_ids _ _ _ _ _ _ _ V)) as [Nl _].
  assert (A : (length (lasting es) <= length (map snd t))%nat).
  { apply NoDup_incl_length; [exact Nl|]. intros u X. destruct (lasting_made _ _ X) as (i & a & b & c & d & e & Hm & Y).
    destruct (proj1 (library_descriptors_fate _ _ _ _ _ _ _ _ R Hm) u Y) as [[n Z] _]. fold t in Z. apply (OwnProof.lookup_in n t u N1) in Z. apply (in_map snd) in Z. exact Z. }
  assert (B : (length (map (fun x => Z.to_nat (fst x)) t) <= length (List.seq 0 (Z.to_nat limit)))%nat).
  { apply NoDup_incl_length.
    - rewrite <- (map_map fst Z.to_nat). clear - N1 N3. induction t as [|[n u] t IH]; cbn [map fst] in *; [constructor|]. inversion N1; subst.
      constructor; [|apply IH; [assumption|intros; eapply N3; right; eassumption]].
      intros X. apply in_map_iff in X as (m & X1 & X2). pose proof X2 as X3. apply in_map_iff in X2 as ([m' v] & X2 & X4). cbn in X2. subst m'.
      destruct (N3 n u (or_introl eq_refl)) as [P1 _]. destruct (N3 m v (or_intror X4)) as [P2 _]. assert (m = n) by lia. subst. contradiction.
    - intros k X. apply in_map_iff in X as ([n u] & <- & X). cbn [fst]. apply in_seq. destruct (N3 n u X) as [P _].
      assert (Y : lookup n t = Some u) by (apply (OwnProof.lookup_in n t u N1); assumption). specialize (L n u Y). lia. }
  rewrite map_length in A, B. rewrite seq_length in B. rewrite (lasting_length es w R) in A. lia.
Qed.
End HISTORY.

(** A history that meets the hypotheses: a library is made and exports a directory,
    in which its sandbox opens a file; a second library is made; the sandbox of the
    first ends, and the first is destroyed; its numbers 11 and 13 are used again by
    the program, which exports the first of them from the second library. *)
Definition demo_life : list (nat * lop) :=
  [(0%nat, LStart 10 11 12 13 14); (0%nat, LUser (UDo (Open 3))); (0%nat, LUser (UDo (Add (tx "/data") false (Some 5%nat))));
   (0%nat, LUser (says (CRequest 0 16 4900) None)); (1%nat, LStart 20 21 22 23 24); (0%nat, LForget); (0%nat, LStop);
   (1%nat, LUser (UDo (Open 11))); (1%nat, LUser (UDo (Add (tx "/log") true (Some 12%nat)))); (1%nat, LUser (UDo (Open 13)))].
Local Notation demo_heaps := (fun i : nat => library_heap 4096 4096 64).
Fixpoint run_life (w : life) (os : list (nat * lop)) : life * lifehistory :=
  match os with
  | [] => (w, [])
  | (i, o) :: r => let x := lifestep true demo_heaps i o w in let y := run_life (fst x) r in (fst y, (i, (o, snd x)) :: snd y)
  end.
Example demo_life_result :
  map (fun e => snd (snd e)) (snd (run_life new_life demo_life)) =
    [LStarted 0 1 2 3 4; LUsed (UDid (Opened 5)); LUsed (UDid (Answer true));
     LUsed (UServed [Asked (KOpenat2 3 (Some (tx "a")) 0 0 8) (Some 5%nat) (Some 6%nat); Replied (-38) (Some (Some 6%nat)); Asked (KClose 100) (Some 6%nat) None]);
     LStarted 7 8 9 10 11; LForgot; LStopped; LUsed (UDid (Opened 12)); LUsed (UDid (Answer true)); LUsed (UDid (Opened 13))] /\
  table (base (process (fst (run_life new_life demo_life)))) =
    [(10, 0%nat); (12, 2%nat); (14, 4%nat); (20, 7%nat); (21, 8%nat); (22, 9%nat); (23, 10%nat); (24, 11%nat); (11, 12%nat); (13, 13%nat)] /\
  closed (base (process (fst (run_life new_life demo_life)))) = [(100, Some 6%nat); (11, Some 1%nat); (13, Some 3%nat); (3, Some 5%nat)].
Proof. vm_compute. repeat split. Qed.
Ltac next_life E pre := destruct pre as [|? pre]; cbn [app] in E; [injection E as <- <- _|injection E as <- E].
Ltac demo_free := intros n H; repeat (destruct H as [<-|H]; [split; [lia|vm_compute; reflexivity]|]); destruct H.
Ltac demo_once := repeat (constructor; [cbn; lia|]); constructor.
Example demo_life_runs : (forall i : nat, mapping_ok 4096 4096 64) /\
  liferuns true demo_heaps (snd (run_life new_life demo_life)) (fst (run_life new_life demo_life)).
Proof.
  split; [intros i; unfold mapping_ok; repeat split; try lia; reflexivity|].
  assert (G : forall os es w, liferuns true demo_heaps es w ->
    (forall pre i o post, os = pre ++ (i, o) :: post -> lifeallowed (es ++ snd (run_life w pre)) (fst (run_life w pre)) i o) ->
    liferuns true demo_heaps (es ++ snd (run_life w os)) (fst (run_life w os))).
  { induction os as [|[i o] os IH]; intros es w R A; cbn [run_life fst snd]; [rewrite app_nil_r; exact R|].
    pose proof (A [] i o os eq_refl) as A0. cbn [run_life fst snd] in A0. rewrite app_nil_r in A0.
    pose proof (liferuns_snoc _ _ _ _ _ _ _ _ R A0 (surjective_pairing (lifestep true demo_heaps i o w))) as R1.
    specialize (IH _ _ R1). rewrite <- app_assoc in IH. apply IH. intros pre i' o' post E.
    pose proof (A ((i, o) :: pre) i' o' post) as A1. cbn [run_life fst snd] in A1. rewrite <- app_assoc. apply A1. rewrite E. reflexivity. }
  apply (G demo_life [] new_life); [constructor|]. cbn [app].
  intros pre i o post E. unfold demo_life in E.
  next_life E pre. { split; [intros a b c d e (n1 & n2 & n3 & n4 & n5 & [])|]. split; [demo_once|demo_free]. }
  next_life E pre. { split; [|exact Logic.I]. split; [|exact Logic.I]. split; [lia|vm_compute; reflexivity]. }
  next_life E pre. { split; [|exact Logic.I]. split; [|exact Logic.I]. split; [vm_compute; discriminate|]. split; [reflexivity|]. intros u [= <-]. apply holdsb_ok. vm_compute. reflexivity. }
  next_life E pre. { split; [|vm_compute; discriminate]. split; [vm_compute; discriminate|]. split; [intros rq fd [= <- <-]; repeat split; solve [discriminate | reflexivity]|].
    split; [apply NoDup_nil|]. split; [intros n []|]. apply demo_fair; [vm_compute; repeat (first [left; reflexivity | right])|].
    vm_compute. intros x H. repeat (destruct H as [<-|H]; [reflexivity|]). destruct H. }
  next_life E pre. { split; [intros a b c d e (n1 & n2 & n3 & n4 & n5 & H); vm_compute in H; repeat (destruct H as [H|H]; [discriminate|]); destruct H|]. split; [demo_once|demo_free]. }
  next_life E pre. { vm_compute. discriminate. }
  next_life E pre. { split; [vm_compute; discriminate|vm_compute; reflexivity]. }
  next_life E pre. { split; [|exact Logic.I]. split; [|exact Logic.I]. split; [lia|vm_compute; reflexivity]. }
  next_life E pre. { split; [|exact Logic.I]. split; [|exact Logic.I]. split; [vm_compute; discriminate|]. split; [reflexivity|]. intros u [= <-]. apply holdsb_ok. vm_compute. reflexivity. }
  next_life E pre. { split; [|exact Logic.I]. split; [|exact Logic.I]. split; [lia|vm_compute; reflexivity]. }
  destruct pre; discriminate.
Qed.
(** The first library of that history is destroyed and dropped, the second not, and
    both are made; the process keeps three descriptors of the first. *)
Example demo_life_both :
  let es := snd (run_life new_life demo_life) in let w := fst (run_life new_life demo_life) in
  made 0 es 0 1 2 3 4 /\ dropped 0 es /\ unmade 0 es /\ made 1 es 7 8 9 10 11 /\ makings es = 2%nat /\
  is_open w 0 /\ is_open w 2 /\ is_open w 4 /\ (forall n u, lookup n (table (base (process w))) = Some u -> n < 25).
Proof.
  cbv zeta. split; [exists 10, 11, 12, 13, 14; vm_compute; tauto|]. split; [vm_compute; tauto|]. split; [vm_compute; tauto|].
  split; [exists 20, 21, 22, 23, 24; vm_compute; tauto|]. split; [vm_compute; reflexivity|].
  split; [exists 10; vm_compute; reflexivity|]. split; [exists 12; vm_compute; reflexivity|]. split; [exists 14; vm_compute; reflexivity|].
  intros n u H. rewrite (proj1 (proj2 demo_life_result)) in H. apply OwnProof.lookup_in in H; [|demo_once]. cbn [In] in H. repeat (destruct H as [H|H]; [injection H as <- <-; lia|]). destruct H.
Qed.
Print Assumptions library_descriptors_fate.
Print Assumptions library_descriptors_private.
Print Assumptions library_descriptors_untouched.
Print Assumptions program_descriptor_in_one_place.
Print Assumptions making_changes_no_export.
Print Assumptions making_never_breaks.
Print Assumptions libraries_ever_made.
