(** The claimed theorems about programs with several libraries (C81). *)
From Coq Require Import List ZArith Bool Lia Arith.
From Verif Require Import ProtoModel ProtoSpec ThrowModel ThrowSpec ThrowProps HostileModel HostileSpec HostileProps CrashModel MtProof MultiModel MultiSpec MultiProof.
Import ListNotations.
Open Scope Z_scope.

Section P.
Variable debug spurious : bool.
Variable honest : nat -> bool.
Variable host_do : nat -> list (nat * event) -> xact.
Variable child_do : nat -> list event -> cact.
Variable ks : nat -> list Z.
Notation run := (mreach debug spurious honest host_do child_do).

(** C81. Whatever happens in the other libraries, compromised or not, a library
    whose sandbox runs library_runner is in a state it could be in were it the only
    one, used by code that does with it what the host's code does. *)
Theorem library_as_if_alone i m : honest i = true -> run (mfresh ks) m ->
  exists hd, acts_as host_do i hd /\ crashes debug spurious hd (child_do i) (fresh (ks i)) (lib m i) /\
    log (lib m i) = events_of i (hist m).
Proof.
  intros Ho R. destruct (honest_view _ _ _ _ _ _ i m Ho R) as (hd & A & C). exists hd. split; [exact A|]. split; [exact C|].
  eapply logs_agree; exact R.
Qed.

(** C81. If what the host does with library [i] depends only on what happened in it,
    the states the library can be in are exactly those it can be in alone. *)
Theorem library_exactly_as_alone i hd s : honest i = true -> (forall h, host_do i h = hd (events_of i h)) ->
  (exists m, run (mfresh ks) m /\ lib m i = s) <-> crashes debug spurious hd (child_do i) (fresh (ks i)) s.
Proof.
  intros Ho HD. split.
  - intros (m & R & <-). destruct (honest_view _ _ _ _ _ _ i m Ho R) as (hd' & A & C).
    eapply crashes_ext; [exact C|]. intros l _. destruct (A l) as (h & E & ->). rewrite HD, E. reflexivity.
  - intros C. destruct (alone_lift debug spurious honest host_do child_do i hd s Ho (mfresh ks)) as (m & R & E & _).
    + intros j. cbn. discriminate.
    + intros x _. rewrite HD, events_app, events_own. reflexivity.
    + exact C.
    + eauto.
Qed.

(** ** A compromised sandbox *)
Lemma below_handler fs : match below fs with OpHandler _ :: _ | [] => True | _ => False end.
Proof. destruct fs as [|[] fs]; exact I. Qed.

Definition xinv (sent got : list Z) (s : conf) : Prop :=
  (exists st, xnest (log s) st /\ (hpc s = HAborted \/ st = opens (hpc s) (hstk s)))
  /\ handled (log s) ++ reqs s = sent /\ results (log s) = got ++ resps s.
Lemma xinv_plain hd sent got fail s s' : host_step debug spurious hd fail s = Some s' -> xinv sent got s -> xinv sent got s'.
Proof.
  destruct s as [v h hs c cs rq rs l]. unfold xinv. cbn [sh hpc hstk cpc cstk reqs resps log].
  intros K [[st [N O]] [Q R]]. unfold host_step in K. cbn [sh hpc hstk cpc cstk reqs resps log] in K.
  destruct h; try discriminate; (destruct O as [O|O]; [discriminate|]); subst st; cbn [opens] in N;
    repeat match goal with
    | H : match ?x with _ => _ end = Some _ |- _ => destruct x eqn:?; try discriminate
    | H : (if ?x then _ else _) = Some _ |- _ => destruct x eqn:?; try discriminate
    end;
    injection K as <-; cbn [sh hpc hstk cpc cstk reqs resps log opens below];
    unfold handled, results in *; rewrite ?flat_map_app; cbn [flat_map app]; rewrite ?app_nil_r, <- ?app_assoc; rewrite ?app_nil_r in Q; cbn [app];
    try (split; [eexists; split; [exact N|right; reflexivity]|split; assumption]);
    try (split; [eexists; split; [exact N|left; reflexivity]|split; assumption]).
  - split; [|split; assumption]. eexists; split; [|right; reflexivity].
    destruct (below_top hs) as [[E1 E2]|[k [t E1]]]; rewrite E1 in *; [apply xnest_req_top|apply xnest_req]; auto.
  - split; [|split; assumption]. eexists; split; [apply xnest_quit; exact N|right; reflexivity].
  - split; [eexists; split; [eapply xnest_handled; exact N|right; reflexivity]|]. split; auto. rewrite R, app_assoc. auto.
  - split; [eexists; split; [eapply xnest_handled; exact N|right; reflexivity]|]. split; auto. rewrite R, app_assoc. auto.
  - split; [eexists; split; [eapply xnest_handle; exact N|right; reflexivity]|]. split; auto.
  - split; [eexists; split; [eapply (xnest_throw _ _ (below hs) []); [rewrite app_nil_r; exact N|discriminate|exact Logic.I]|right; reflexivity]|]. split; auto.
  - split; [eexists; split; [eapply xnest_done; exact N|right; reflexivity]|]. split; auto.
  - split; [eexists; split; [eapply xnest_handle; exact N|right; reflexivity]|]. split; auto.
Qed.
Lemma xinv_host hd sent got fail s s' : xhost_step debug spurious hd fail s = Some s' -> xinv sent got s -> xinv sent got s'.
Proof.
  unfold xhost_step. intros K I. destruct (hpc s) eqn:P; try (eapply xinv_plain; eassumption).
  destruct (hd (log s)) as [a|caught]; [eapply xinv_plain; eassumption|].
  destruct (hstk s) as [|f st] eqn:S; [eapply xinv_plain; eassumption|].
  injection K as <-. destruct I as [[u [N O]] [Q R]]. unfold xinv. cbn [log hpc hstk reqs resps].
  rewrite P, S in O. destruct O as [O|O]; [discriminate|]. cbn [opens] in O. subst u.
  unfold handled, results in *. rewrite !flat_map_app. cbn [flat_map app]. rewrite !app_nil_r. split; [|split; assumption].
  assert (B : exists k i b, below (f :: st) = OpHandler k :: OpCall i b :: below st) by (destruct f; cbn; eauto).
  destruct B as (k & i & b & B). rewrite B in N. exists (below (if caught then st else [])). split; [|right; reflexivity].
  destruct caught.
  - apply (xnest_throw _ (OpHandler k) [OpCall i b] (below st)); [exact N|discriminate|apply below_handler].
  - apply (xnest_throw _ (OpHandler k) (OpCall i b :: below st) []); [rewrite app_nil_r; exact N|discriminate|exact Logic.I].
Qed.
Lemma xinv_hostile hd l0 sent got s : xhostile debug spurious hd (fresh l0) sent got s -> xinv sent got s.
Proof.
  induction 1 as [|sent got fail s s' H IH K|sent got s v new n H IH G|sent got s H IH G].
  - split; [exists []; split; [constructor|right; reflexivity]|]. split; reflexivity.
  - eapply xinv_host; eauto.
  - destruct IH as [N [Q R]]. unfold meddle, xinv. cbn [log hpc hstk reqs resps]. split; [exact N|]. split.
    + rewrite app_assoc, Q. auto.
    + rewrite R, <- app_assoc, firstn_skipn. auto.
  - exact IH.
Qed.

(** C53, C81. A compromised sandbox among others: in its own library the host's code
    still sees properly nested calls and handlers, also when handlers throw; the
    host's own code runs only at top level or in an open handler. *)
Theorem compromised_control_is_nested i m : honest i = false -> run (mfresh ks) m ->
  exists st, xnest (events_of i (hist m)) st /\
    (hpc (lib m i) = HUser -> match st with OpCall _ _ :: _ | Closed :: _ => False | _ => True end).
Proof.
  intros Ho R. destruct (hostile_view _ _ _ _ _ _ i m Ho R) as (hd & sent & got & _ & C).
  apply xinv_hostile in C as [[st [N O]] _]. rewrite (logs_agree _ _ _ _ _ _ m R i) in N. exists st. split; [exact N|].
  intros P. destruct O as [O|O]; [congruence|]. subst st. rewrite P. cbn [opens].
  destruct (below_top (hstk (lib m i))) as [[-> _]|[k [t ->]]]; exact Logic.I.
Qed.
(** C53. For one library with handlers that may throw: handlers run for exactly the
    requests sent, in order and at most once each, and all the sandbox receives are
    results of handlers that returned, in order and at most once each. *)
Theorem throwing_handlers_follow_requests hd sent got s : xhostile debug spurious hd (fresh []) sent got s ->
  handled (log s) ++ reqs s = sent /\ got ++ resps s = results (log s).
Proof. intros H. destruct (xinv_hostile _ _ _ _ _ H) as (_ & A & B). auto. Qed.

(** C81. A step in one library, of the host's code or of a sandbox, changes no
    other. *)
Theorem others_stay i m m' j : mstep debug spurious honest host_do child_do i m m' -> j <> i ->
  lib m' j = lib m j /\ events_of j (hist m') = events_of j (hist m).
Proof.
  intros St N. apply mstep_extends in St as (s & y & -> & E). rewrite put_other, (put_hist _ _ _ _ E), events_app, events_other, app_nil_r by auto.
  auto.
Qed.

(** C81. Each library's calls are those of one sequential program (C73), whatever
    the others do, as long as its own sandbox lives. *)
Lemma alive_xreach hd cd s0 s : crashes debug spurious hd cd s0 s -> cpc s <> CKilled -> xreach debug spurious hd cd s0 s.
Proof.
  induction 1 as [|s s' C IH St|s C IH G]; intros N; [constructor| |exfalso; apply N; reflexivity].
  econstructor; [apply IH|exact St]. intros K. apply N. destruct St as [f a b H|f a b H].
  - rewrite <- K. apply (xhost_keeps debug spurious) in H. exact H.
  - unfold child_step in H. rewrite K in H. discriminate.
Qed.
End P.

Section Q.
Variable debug : bool.
Variable honest : nat -> bool.
Variable host_do : nat -> list (nat * event) -> xact.
Variable child_do : nat -> list event -> cact.
Variable ks : nat -> list Z.
Notation run := (mreach debug false honest host_do child_do).
Variable i : nat.
Hypothesis runs_runner : honest i = true.
(** As in C73, of the host's use of library [i] only. *)
Hypothesis nonnull : forall h n b, host_do i h = XDo (HCall n b) -> b <> 0.
Hypothesis nocatch : forall h, host_do i h <> XThrow true.
Hypothesis quiet : forall h l k, In k (ks i) -> no_invoke l -> events_of i h = l ++ [EHandle k] ->
  exists r, host_do i h = XDo (HReturn r).

Lemma acts_ok hd : acts_as host_do i hd ->
  (forall l n b, hd l = XDo (HCall n b) -> b <> 0) /\ (forall l, hd l <> XThrow true) /\
  (forall l k, In k (ks i) -> no_invoke l -> exists r, hd (l ++ [EHandle k]) = XDo (HReturn r)).
Proof.
  intros A. split; [|split].
  - intros l n b. destruct (A l) as (h & _ & ->). apply nonnull.
  - intros l. destruct (A l) as (h & _ & ->). apply nocatch.
  - intros l k K N. destruct (A (l ++ [EHandle k])) as (h & E & ->). eapply quiet; eauto.
Qed.

Theorem several_libraries_sequential m : run (mfresh ks) m -> cpc (lib m i) <> CKilled ->
  no_invoke (events_of i (hist m))
  \/ exists hd c0 st ct l, acts_as host_do i hd /\ load_start (ks i) c0 /\ xseq hd (child_do i) c0 (st, ct, l)
       /\ (events_of i (hist m) = l \/ (events_of i (hist m) = l ++ [EQuit] /\ st = [] /\ ct = InHost)).
Proof.
  intros R NK. destruct (library_as_if_alone _ _ _ _ _ _ i m runs_runner R) as (hd & A & C & L). rewrite <- L.
  destruct (acts_ok hd A) as (H1 & H2 & H3). apply alive_xreach in C; [|exact NK].
  destruct (throwing_is_sequential debug hd (child_do i) (ks i) H1 H2 H3 _ C) as [X|(c0 & st & ct & l & X)]; [left; exact X|].
  right. exists hd, c0, st, ct, l. tauto.
Qed.

(** C81. Progress does not depend on the others: while the host is not aborted, a
    library whose sandbox lives can have its next event without a step of any other
    library, whatever state they are in. *)
Theorem progress_despite_others m n b : run (mfresh ks) m -> (forall j, hpc (lib m j) <> HAborted) ->
  cpc (lib m i) <> CKilled -> In (EInvoke n b) (events_of i (hist m)) -> hpc (lib m i) <> HEnd ->
  exists m', run m m' /\ (forall j, j <> i -> lib m' j = lib m j) /\
    ((exists e y, hist m' = hist m ++ (i, e) :: y) \/ hpc (lib m' i) = HEnd).
Proof.
  intros R NA NK X NE. destruct (library_as_if_alone _ _ _ _ _ _ i m runs_runner R) as (hd & A & C & L).
  set (k := length (log (lib m i))).
  set (hd' := fun x => if list_eq_dec event_eq_dec (firstn k x) (log (lib m i)) then host_do i (hist m ++ map (pair i) (skipn k x)) else hd x).
  assert (A' : acts_as host_do i hd').
  { intros x. unfold hd'. destruct (list_eq_dec _ _ _) as [E|E]; [|apply A]. eexists. split; [|reflexivity].
    rewrite events_app, events_own, <- L, <- E. apply firstn_skipn. }
  assert (C' : crashes debug false hd' (child_do i) (fresh (ks i)) (lib m i)).
  { eapply crashes_ext; [exact C|]. intros x Lx. unfold hd'. destruct (list_eq_dec _ _ _) as [E|E]; [|reflexivity].
    apply (f_equal (@length _)) in E. rewrite firstn_length in E. lia. }
  destruct (acts_ok hd' A') as (H1 & H2 & H3). apply alive_xreach in C'; [|exact NK].
  rewrite <- L in X.
  destruct (throwing_makes_progress debug hd' (child_do i) (ks i) H1 H2 H3 _ n b C' X NE) as (s' & R' & P).
  destruct (alone_lift debug false honest host_do child_do i hd' s' runs_runner m NA) as (m' & Rm & E & O & y & Ly & Hy).
  - intros x Ex. unfold hd'. fold k in Ex |- *. destruct (list_eq_dec _ _ _) as [_|E]; [reflexivity|contradiction].
  - clear - R'. induction R'; [constructor|eapply crashes_step; eauto].
  - exists m'. split; [exact Rm|]. split; [exact O|]. rewrite E. destruct P as [P|P]; [left|right; exact P].
    rewrite Ly, app_length in P. destruct y as [|e y]; [cbn in P; lia|]. exists e, (map (pair i) y). exact Hy.
Qed.
End Q.

(** ** Limits *)
Fixpoint xhosts (debug spurious : bool) (n : nat) (s : conf) : option conf :=
  match n with
  | O => Some s
  | S n => match hpc s with
           | HUser => None
           | _ => match host_step debug spurious (fun _ => HReturn 0) true s with Some s' => xhosts debug spurious n s' | None => None end
           end
  end.
Lemma xhosts_run debug spurious honest hd cd i n : forall m s, (forall j, hpc (lib m j) <> HAborted) ->
  xhosts debug spurious n (lib m i) = Some s ->
  exists m', mreach debug spurious honest hd cd m m' /\ lib m' i = s /\ forall j, j <> i -> lib m' j = lib m j.
Proof.
  induction n as [|n IH]; cbn [xhosts]; intros m s NA H; [injection H as <-; exists m; repeat split; constructor|].
  assert (HU : hpc (lib m i) <> HUser) by (intros X; rewrite X in H; discriminate).
  assert (H' : match host_step debug spurious (fun _ => HReturn 0) true (lib m i) with Some s' => xhosts debug spurious n s' | None => None end = Some s)
    by (destruct (hpc (lib m i)); (exact H || discriminate)).
  clear H. destruct (host_step _ _ _ _ _) as [s1|] eqn:E; [|discriminate].
  assert (St : mstep debug spurious honest hd cd i m (put i s1 m)).
  { apply mstep_host with true; [exact NA|]. unfold xhost_step.
    assert (Y : host_step debug spurious (plain (fun _ => hd i (hist m))) true (lib m i) = Some s1)
      by (eapply host_ext; [exact E|intros X; contradiction]).
    destruct (hpc (lib m i)); try exact Y. contradiction. }
  destruct n as [|n].
  - cbn in H'. injection H' as <-. exists (put i s1 m). split; [econstructor; [constructor|exact St]|]. split; [apply put_same|].
    intros j N. apply put_other, N.
  - destruct (IH (put i s1 m) s) as (m' & R & X & O).
    + intros j. destruct (Nat.eq_dec j i) as [->|N]; [|rewrite put_other by exact N; apply NA]. rewrite put_same.
      intros X. cbn [xhosts] in H'. rewrite X in H'. unfold host_step in H'. rewrite X in H'. discriminate.
    + rewrite put_same. exact H'.
    + exists m'. split; [|split; [exact X|intros j N; rewrite O, put_other by exact N; reflexivity]].
      clear - R St. assert (T : mreach debug spurious honest hd cd m (put i s1 m)) by (econstructor; [constructor|exact St]).
      induction R; [exact T|econstructor; eauto].
Qed.

(** C54, C81 (limit). A compromised sandbox that the host calls can end the host, and
    with it the use of every other library: from then on no code of the host runs,
    in whatever calls its threads were. *)
Theorem one_compromised_ends_all debug spurious honest hd cd i m n b : honest i = false ->
  (forall j, hpc (lib m j) <> HAborted) -> gone (cpc (lib m i)) = false -> hpc (lib m i) = HLoop n b ->
  exists m', mreach debug spurious honest hd cd m m' /\ (forall j, j <> i -> lib m' j = lib m j) /\
    forall m'', mreach debug spurious honest hd cd m' m'' -> forall j, hpc (lib m'' j) = hpc (lib m' j) /\ hstk (lib m'' j) = hstk (lib m' j).
Proof.
  intros Ho NA G P.
  set (m1 := put i (meddle (Shared 0 0 0 1 1 false false true) [] 0 (lib m i)) m).
  assert (S1 : mreach debug spurious honest hd cd m m1) by (econstructor; [constructor|apply mstep_meddles; assumption]).
  assert (exists s, xhosts debug spurious 6 (lib m1 i) = Some s /\ hpc s = HAborted) as (s & Hs & As).
  { unfold m1. rewrite put_same. destruct (lib m i) as [v h hs c cs rq rs l]. cbn in P, G. subst h. unfold meddle. cbn [hpc hstk cpc cstk reqs resps log].
    destruct debug, c; try discriminate; (eexists; split; [vm_compute; reflexivity|reflexivity]). }
  destruct (xhosts_run debug spurious honest hd cd i 6 m1 s) as (m' & R & E & O); [|exact Hs|].
  { intros j. destruct (Nat.eq_dec j i) as [->|N]; unfold m1; [rewrite put_same; cbn; rewrite P; discriminate|rewrite put_other by exact N; apply NA]. }
  exists m'. split; [clear - S1 R; induction R; [exact S1|econstructor; eauto]|]. split.
  - intros j N. rewrite O by exact N. unfold m1. apply put_other, N.
  - assert (Ab : hpc (lib m' i) = HAborted) by (rewrite E; exact As). clear - Ab.
    intros m'' R. induction R as [|m1 k m2 R IH St]; intros j; [auto|].
    assert (Ab1 : hpc (lib m1 i) = HAborted) by (rewrite (proj1 (IH i)); exact Ab).
    destruct St as [f s' NA H|f s' Ho H|G|v new n Ho G].
    + destruct (NA i Ab1).
    + destruct (Nat.eq_dec j k) as [->|N]; [rewrite put_same|rewrite put_other by exact N; apply IH].
      apply child_keeps in H as [-> ->]. apply IH.
    + destruct (Nat.eq_dec j k) as [->|N]; [rewrite put_same; apply IH|rewrite put_other by exact N; apply IH].
    + destruct (Nat.eq_dec j k) as [->|N]; [rewrite put_same; apply IH|rewrite put_other by exact N; apply IH].
Qed.

(** *** The hypotheses are met: a program with two libraries, the first of which is
    compromised while a handler of the second calls it. *)
Definition two_honest (i : nat) : bool := Nat.eqb i 1.
Definition two_host (i : nat) (h : list (nat * event)) : xact :=
  match i, events_of i h with
  | 1%nat, [] => XDo (HCall 7 70)
  | 0%nat, [] => XDo (HCall 5 50)
  | _, _ => XDo (HReturn 3)
  end.
Definition two_child (i : nat) (l : list event) : cact :=
  match l with [_; _] => CCallback 9 | _ => CReturn end.

Fixpoint xplay (hd : list event -> xact) (cd : list event -> cact) (xs : list bool) (s : conf) : option conf :=
  match xs with
  | [] => Some s
  | x :: r => match (if x then xhost_step true false hd false s else child_step true cd false s) with
              | Some s' => xplay hd cd r s' | None => None end
  end.
Lemma xplay_crashes hd cd xs : forall s0 s s', crashes true false hd cd s0 s -> xplay hd cd xs s = Some s' -> crashes true false hd cd s0 s'.
Proof.
  induction xs as [|x xs IH]; intros s0 s s' C H; [injection H as <-; exact C|]. cbn [xplay] in H. destruct x.
  - destruct (xhost_step _ _ _ _ s) eqn:E; [|discriminate]. eapply IH; [|exact H]. eapply crashes_step; [exact C|]. eapply xstep_host; exact E.
  - destruct (child_step _ _ _ s) eqn:E; [|discriminate]. eapply IH; [|exact H]. eapply crashes_step; [exact C|]. eapply xstep_child; exact E.
Qed.
Definition two_run : option conf := Eval vm_compute in
  xplay (fun l => two_host 1 (map (pair 1%nat) l)) (two_child 1) (repeat false 4 ++ repeat true 7 ++ repeat false 9 ++ repeat true 3) (fresh []).
Example several_ex :
  (forall i h n b, two_host i h = XDo (HCall n b) -> b <> 0) /\ (forall i h, two_host i h <> XThrow true) /\
  exists m, mreach true false two_honest two_host two_child (mfresh (fun _ => [])) m /\
    (forall j, hpc (lib m j) <> HAborted) /\
    hist m = [(1%nat, EReq 7 70); (1%nat, EInvoke 7 70); (1%nat, ECallback 9); (1%nat, EHandle 9); (0%nat, EReq 5 50)] /\
    two_honest 1 = true /\ cpc (lib m 1) = CChk 1 /\ hpc (lib m 1) = HUser /\
    two_honest 0 = false /\ gone (cpc (lib m 0)) = false /\ hpc (lib m 0) = HLoop 5 50.
Proof.
  split; [|split].
  - intros i h n b. unfold two_host. destruct i as [|[|i]]; [destruct (events_of 0 h)|destruct (events_of 1 h)|destruct (events_of (S (S i)) h)]; intros [= <- <-]; lia.
  - intros i h. unfold two_host. destruct i as [|[|i]]; [destruct (events_of 0 h)|destruct (events_of 1 h)|destruct (events_of (S (S i)) h)]; discriminate.
  - set (hd := fun l => two_host 1 (map (pair 1%nat) l)).
    assert (C : exists s, two_run = Some s /\ crashes true false hd (two_child 1) (fresh []) s).
    { eexists. split; [reflexivity|]. apply (xplay_crashes hd (two_child 1) (repeat false 4 ++ repeat true 7 ++ repeat false 9 ++ repeat true 3) (fresh []) (fresh [])).
      - constructor.
      - vm_compute. reflexivity. }
    destruct C as (s & E & C). injection E as <-.
    destruct (alone_lift true false two_honest two_host two_child 1%nat hd _ eq_refl (mfresh (fun _ => []))
      ltac:(intros j; cbn; discriminate) ltac:(reflexivity) C) as (m & R & L1 & O & y & Ly & Hy).
    cbn [log lib mfresh fresh app hist] in Ly, Hy. subst y.
    assert (L0 : lib m 0%nat = fresh []) by (rewrite O by discriminate; reflexivity).
    assert (NA : forall j, hpc (lib m j) <> HAborted).
    { intros j. destruct (Nat.eq_dec j 1) as [->|N]; [rewrite L1; discriminate|rewrite O by exact N; cbn; discriminate]. }
    set (s0 := Conf (Shared 0 0 0 0 0 false false false) (HLoop 5 50) [] CUser [KLoad []] [] [] [EReq 5 50]).
    exists (put 0 s0 m). split; [|split; [|split]].
    + econstructor; [exact R|]. apply mstep_host with false; [exact NA|]. rewrite L0, Hy. vm_compute. reflexivity.
    + intros j. destruct (Nat.eq_dec j 0) as [->|N]; [rewrite put_same; discriminate|rewrite put_other by exact N; apply NA].
    + rewrite (put_hist _ _ _ [EReq 5 50]) by (rewrite L0; reflexivity). rewrite Hy. reflexivity.
    + rewrite put_same, put_other, L1 by discriminate. repeat split.
Qed.

Print Assumptions library_as_if_alone.
Print Assumptions library_exactly_as_alone.
Print Assumptions compromised_control_is_nested.
Print Assumptions throwing_handlers_follow_requests.
Print Assumptions others_stay.
Print Assumptions several_libraries_sequential.
Print Assumptions progress_despite_others.
Print Assumptions one_compromised_ends_all.
