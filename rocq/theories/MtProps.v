(** The claimed theorems about several threads (C63). *)
From Coq Require Import List ZArith Bool Lia Arith.
From Verif Require Import ProtoModel ProtoSpec ProtoProof MtModel MtSpec MtProof.
Import ListNotations.
Open Scope Z_scope.

Lemma idle_inv hd cd : Inv hd cd ([], InHost, []) idle.
Proof. apply (I_user hd cd ([], InHost, []) [] 0 (CChk 0) []); [constructor|left; reflexivity|constructor]. Qed.

Lemma turns_inv debug spurious hd cd n m s : (1 <= n)%nat -> (forall t l i b, hd t l = HCall i b -> b <> 0) ->
  turns debug spurious hd cd (midle n m) s ->
  exists hd1 cd1 c, (forall l, exists t, hd1 l = hd t l) /\ (forall l, exists t, cd1 l = cd t l) /\
    Inv hd1 cd1 ([], InHost, []) c /\ sim s c.
Proof.
  intros L NN T. destruct (sim_turns _ _ _ _ _ _ _ L T) as (hd1 & cd1 & c & CH & CC & R & S).
  exists hd1, cd1, c. do 2 (split; [assumption|]). split; [|exact S].
  eapply Inv_reach; [|apply idle_inv|exact R].
  intros l i b E. destruct (CH l) as (t & X). rewrite X in E. eapply NN; eauto.
Qed.

(** C63. Host threads that take turns with the Library, and sandbox threads that
    make callbacks only while the main thread is in a function and one at a time:
    everything that happens is a history of one sequential program in which every
    decision is that of one of the threads. *)
Theorem threads_in_turn_are_sequential : forall debug spurious hd cd n m s,
  (1 <= n)%nat -> (forall t l i b, hd t l = HCall i b -> b <> 0) ->
  turns debug spurious hd cd (midle n m) s ->
  exists hd1 cd1 st ct l,
    (forall l, exists t, hd1 l = hd t l) /\ (forall l, exists t, cd1 l = cd t l) /\
    seq hd1 cd1 ([], InHost, []) (st, ct, l) /\ (m_log s = l \/ m_log s = l ++ [EQuit]).
Proof.
  intros debug spurious hd cd n m s L NN T.
  destruct (turns_inv _ _ _ _ _ _ _ L NN T) as (hd1 & cd1 & c & CH & CC & I & S).
  assert (E : m_log s = log c) by (destruct S; assumption). rewrite E.
  exists hd1, cd1. destruct I; cbn [log]; eauto 10.
Qed.

(** C63. Then, whenever no host thread is in the Library, every call ever made is
    complete: it ran its function once, every callback got its own handler's
    result, and all is properly nested. *)
Theorem threads_in_turn_calls_complete : forall debug spurious hd cd n m s,
  (1 <= n)%nat -> (forall t l i b, hd t l = HCall i b -> b <> 0) ->
  turns debug spurious hd cd (midle n m) s ->
  (forall u h, nth_error (m_hosts s) u = Some h -> host_away h) -> calls (m_log s).
Proof.
  intros debug spurious hd cd n m s L NN T A.
  destruct (turns_inv _ _ _ _ _ _ _ L NN T) as (hd1 & cd1 & c & CH & CC & I & S).
  destruct S as [a w _ _ _ E HA _ _ _ _]. rewrite E. pose proof (A _ _ HA) as X. unfold host_away in X. injection X as X1 X2.
  destruct I; cbn [hpc hstk] in X1, X2; subst; try discriminate; try (unfold waiting in *; intuition discriminate).
  assert (st = []) as -> by (inversion H; subst; [auto|discriminate]).
  cbn [log]. pose proof (good_seq _ _ _ _ H1 good_start) as [_ G]. eapply shape_top; eauto.
Qed.

(** C63. Nor does any thread's protocol check end its process. *)
Theorem threads_in_turn_never_abort : forall debug spurious hd cd n m s,
  (1 <= n)%nat -> (forall t l i b, hd t l = HCall i b -> b <> 0) ->
  turns debug spurious hd cd (midle n m) s ->
  (forall u st, nth_error (m_hosts s) u <> Some (HAborted, st)) /\
  (~ In EQuit (m_log s) -> forall u pc st, nth_error (m_kids s) u = Some (pc, st) -> gone pc = false).
Proof.
  intros debug spurious hd cd n m s L NN T.
  destruct (turns_inv _ _ _ _ _ _ _ L NN T) as (hd1 & cd1 & c & CH & CC & I & S).
  pose proof (sim_gone _ _ S) as G. destruct S as [a w _ _ _ E HA HO _ _ _]. split.
  - intros u st X. destruct (Nat.eq_dec u a) as [->|NE].
    + rewrite HA in X. injection X as X _. destruct I; cbn [hpc] in X; subst; try discriminate; try (unfold waiting in *; intuition discriminate).
    + pose proof (HO _ _ NE X) as Y. unfold host_away in Y. discriminate.
  - intros NQ u pc st X. assert (GC : gone (cpc c) = false).
    { rewrite E in NQ. destruct I; cbn [cpc log] in *; subst; try reflexivity;
        try (unfold parked in *; intuition (subst; reflexivity));
        try (exfalso; apply NQ; apply in_or_app; right; left; reflexivity). }
    rewrite GC in G. destruct (gone pc) eqn:P; [|reflexivity]. exfalso.
    assert (Y : existsb (fun k => gone (fst k)) (m_kids s) = true)
      by (apply existsb_exists; exists (pc, st); split; [eapply nth_error_In; eauto|exact P]).
    congruence.
Qed.

(** *** Any schedule *)

Lemma mreach_fifo debug spurious hd cd n m s : mreach debug spurious hd cd (midle n m) s ->
  made (m_log s) = taken (m_log s) ++ m_reqs s /\ answered (m_log s) = received (m_log s) ++ m_resps s.
Proof.
  induction 1 as [|s x s' R [F1 F2] St]; [split; reflexivity|].
  destruct x as [t f|t f]; cbn [mstep] in St.
  - unfold mhost_step in St. destruct (host_gone _); [discriminate|].
    destruct (nth_error _ _) as [[pc st]|]; [|discriminate].
    destruct (host_step _ _ _ _ _) as [c|] eqn:H; [|discriminate]. inversion St; subst; clear St.
    cbn [m_log m_reqs m_resps]. unfold host_step in H. cbn [sh hpc hstk cpc cstk reqs resps log] in H.
    destruct pc; try discriminate H; repeat match goal with
      | H : context [match ?x with _ => _ end] |- _ => destruct x eqn:?; try discriminate
      end; injection H as <-; unfold made, taken, answered, received in *; cbn [reqs resps log]; rewrite ?flat_map_app, ?F1, ?F2; cbn [flat_map];
      rewrite ?app_nil_r, <- ?app_assoc; auto.
  - unfold mchild_step in St. destruct (existsb _ _); [discriminate|].
    destruct (nth_error _ _) as [[pc st]|]; [|discriminate].
    destruct (child_step _ _ _ _) as [c|] eqn:H; [|discriminate]. inversion St; subst; clear St.
    cbn [m_log m_reqs m_resps]. unfold child_step in H. cbn [sh hpc hstk cpc cstk reqs resps log] in H.
    destruct pc; try discriminate H; repeat match goal with
      | H : context [match ?x with _ => _ end] |- _ => destruct x eqn:?; try discriminate
      end; injection H as <-; unfold made, taken, answered, received in *; cbn [reqs resps log]; rewrite ?flat_map_app, ?F1, ?F2; cbn [flat_map];
      rewrite ?app_nil_r, <- ?app_assoc; auto.
Qed.

(** C63. Whatever the threads do and however they interleave: handlers run for the
    callbacks made, in the order made, each at most once; and the results given to
    callbacks are the results of handlers, in the order these returned, each at
    most once. *)
Theorem threads_callbacks_in_order : forall debug spurious hd cd n m s,
  mreach debug spurious hd cd (midle n m) s ->
  (exists rest, made (m_log s) = taken (m_log s) ++ rest) /\
  (exists rest, answered (m_log s) = received (m_log s) ++ rest).
Proof. intros. apply mreach_fifo in H as [A B]. eauto. Qed.

(** *** Limits: what goes wrong without taking turns *)

Lemma mrun_cons debug spurious hd cd x xs s s1 r :
  mstep debug spurious hd cd x s = Some s1 -> mrun debug spurious hd cd xs s1 = r ->
  mrun debug spurious hd cd (x :: xs) s = r.
Proof. intros A B. cbn. rewrite A. exact B. Qed.
Ltac one := lazy; repeat match goal with H : ?f ?a ?b = _ |- context [?f ?a ?b] => rewrite H end; lazy; reflexivity.
Ltac go := cbn [repeat app]; repeat (eapply mrun_cons; [one|]); cbn [mrun]; reflexivity.

(** C63 (limit). A thread of the library makes a callback while no call is in
    progress.  The host's next call returns at once, without its function having
    been started. *)
Theorem background_callback_loses_call : forall debug spurious hd cd k i b,
  cd 1%nat [] = CCallback k -> hd 0%nat [ECallback k] = HCall i b ->
  exists xs s, mrun debug spurious hd cd xs (midle 1 1) = Some s /\
    m_log s = [ECallback k; EReq i b; EDone i b] /\ m_hosts s = [(HUser, [])].
Proof.
  intros debug spurious hd cd k i b C H.
  exists (repeat (TC 1 false) 4 ++ repeat (TH 0 false) 9). eexists. split; [|split].
  - destruct debug; go.
  - reflexivity.
  - reflexivity.
Qed.

Ltac nz b := let p := fresh "p" in destruct b as [|p|p]; [congruence| |].

(** C63 (limit). Two threads of the sandbox are in callbacks at the same time.  The
    result of the handler of the first is given to the second. *)
Theorem concurrent_callbacks_swap_results : forall debug spurious hd cd i b k1 k2 r1, b <> 0 ->
  hd 0%nat [] = HCall i b ->
  cd 0%nat [EReq i b; EInvoke i b] = CCallback k1 ->
  cd 1%nat [EReq i b; EInvoke i b; ECallback k1] = CCallback k2 ->
  hd 0%nat [EReq i b; EInvoke i b; ECallback k1; ECallback k2; EHandle k1] = HReturn r1 ->
  exists xs s, mrun debug spurious hd cd xs (midle 1 1) = Some s /\
    m_log s = [EReq i b; EInvoke i b; ECallback k1; ECallback k2; EHandle k1; EHandled k1 r1; EResume k2 r1].
Proof.
  intros debug spurious hd cd i b k1 k2 r1 NB H1 C1 C2 H2.
  exists (repeat (TH 0 false) 7                 (* the call *)
       ++ repeat (TC 0 false) 6                 (* the function starts *)
       ++ repeat (TC 0 false) 4                 (* it calls back *)
       ++ repeat (TH 0 false) 2                 (* the host takes the token *)
       ++ repeat (TC 1 false) 3                 (* the other thread calls back *)
       ++ repeat (TH 0 false) 5                 (* the first is handled *)
       ++ repeat (TC 1 false) 9).               (* the other gets the answer *)
  eexists. split.
  - nz b; destruct debug; go.
  - reflexivity.
Qed.

(** C63 (limit). Two threads of the host call at the same time.  Both calls return;
    the function the first one asked for was never started. *)
Theorem concurrent_calls_lose_one : forall debug spurious hd cd i1 b1 i2 b2, b2 <> 0 ->
  hd 0%nat [] = HCall i1 b1 -> hd 1%nat [EReq i1 b1] = HCall i2 b2 ->
  cd 0%nat [EReq i1 b1; EReq i2 b2; EInvoke i2 b2] = CReturn ->
  exists xs s, mrun debug spurious hd cd xs (midle 2 0) = Some s /\
    m_log s = [EReq i1 b1; EReq i2 b2; EInvoke i2 b2; EReturn i2 b2; EDone i2 b2; EDone i1 b1] /\
    m_hosts s = [(HUser, []); (HUser, [])].
Proof.
  intros debug spurious hd cd i1 b1 i2 b2 NB H1 H2 C.
  exists (repeat (TH 0 false) 5                 (* the first call's frame is stored *)
       ++ repeat (TH 1 false) 5                 (* and overwritten *)
       ++ repeat (TH 0 false) 2                 (* the sandbox is woken *)
       ++ repeat (TC 0 false) 10
       ++ repeat (TH 1 false) 4
       ++ repeat (TC 0 false) 9
       ++ repeat (TH 0 false) 2).
  eexists. split; [|split].
  - nz b2; destruct debug; go.
  - reflexivity.
  - reflexivity.
Qed.

(** C63 (limit). Or the host ends itself on a failed check. *)
Theorem concurrent_calls_abort_host : forall debug spurious hd cd i1 b1 i2 b2,
  hd 0%nat [] = HCall i1 b1 -> hd 1%nat [EReq i1 b1] = HCall i2 b2 ->
  exists xs s st, mrun debug spurious hd cd xs (midle 2 0) = Some s /\
    nth_error (m_hosts s) 1 = Some (HAborted, st).
Proof.
  intros debug spurious hd cd i1 b1 i2 b2 H1 H2.
  exists (repeat (TH 0 false) 7 ++ repeat (TH 1 false) (if debug then 6 else 7)).
  eexists. exists []. split.
  - destruct debug; go.
  - reflexivity.
Qed.

(** C63 (limit). A failed check in one thread ends the whole host: no thread of it
    takes another step. *)
Theorem abort_ends_all_threads : forall debug spurious hd cd s u st, nth_error (m_hosts s) u = Some (HAborted, st) ->
  forall t f, mstep debug spurious hd cd (TH t f) s = None.
Proof.
  intros debug spurious hd cd s u st H t f. cbn [mstep]. unfold mhost_step.
  replace (host_gone (m_hosts s)) with true; [reflexivity|]. symmetry. apply existsb_exists.
  exists (HAborted, st). split; [eapply nth_error_In; eassumption|reflexivity].
Qed.
Print Assumptions abort_ends_all_threads.

(** C63 (limit). Two threads of the sandbox that call back before the host has taken
    the first token end the sandbox. *)
Theorem concurrent_callbacks_abort_sandbox : forall debug spurious hd cd k1 k2,
  cd 1%nat [] = CCallback k1 -> cd 2%nat [ECallback k1] = CCallback k2 ->
  exists xs s st, mrun debug spurious hd cd xs (midle 1 2) = Some s /\
    nth_error (m_kids s) 2 = Some (CAborted, st) /\
    (forall x s', mstep debug spurious hd cd x s = Some s' -> exists t f, x = TH t f).
Proof.
  intros debug spurious hd cd k1 k2 C1 C2.
  exists (repeat (TC 1 false) 4 ++ repeat (TC 2 false) 4).
  eexists. eexists. split; [|split].
  - destruct debug; go.
  - reflexivity.
  - intros [t f|t f] s' X; [eauto|]. cbn in X. discriminate.
Qed.

(** *** One thread on each side: the model of C32 *)

Definition embed (c : conf) : mconf :=
  MConf (sh c) [(hpc c, hstk c)] [(cpc c, cstk c)] (reqs c) (resps c) (log c).

Lemma embed_step debug spurious h k c s' :
  (exists x, mstep debug spurious (fun _ => h) (fun _ => k) x (embed c) = Some s') <->
  (exists c', step debug spurious h k c c' /\ s' = embed c').
Proof.
  assert (PG : gone (process_state [(cpc c, cstk c)]) = gone (cpc c))
    by (unfold process_state; cbn [existsb fst]; destruct (gone (cpc c)); reflexivity).
  split.
  - intros ([[|t] f|[|t] f] & H); cbn [mstep] in H.
    + unfold mhost_step, embed in H. cbn [m_sh m_hosts m_kids m_reqs m_resps m_log nth_error] in H.
      destruct (host_gone _); [discriminate|].
      destruct (host_step _ _ _ _ _) as [c1|] eqn:E; [|discriminate]. inversion H; subst; clear H.
      apply (host_frame _ _ _ _ _ _ (cpc c) (cstk c)) in E; [|symmetry; exact PG].
      cbn [sh hpc hstk cpc cstk reqs resps log] in E. eexists. split; [apply step_host with f; destruct c; exact E|reflexivity].
    + unfold mhost_step, embed in H. cbn [m_hosts nth_error] in H. destruct (host_gone _); [discriminate|]. destruct t; discriminate.
    + unfold mchild_step, embed in H. cbn [m_sh m_hosts m_kids m_reqs m_resps m_log nth_error] in H.
      destruct (existsb _ _); [discriminate|].
      destruct (child_step _ _ _ _) as [c1|] eqn:E; [|discriminate]. inversion H; subst; clear H.
      apply (child_frame _ _ _ _ _ (hpc c) (hstk c)) in E.
      cbn [sh hpc hstk cpc cstk reqs resps log] in E. eexists. split; [apply step_child with f; destruct c; exact E|reflexivity].
    + unfold mchild_step, embed in H. cbn [m_kids nth_error] in H. destruct (existsb _ _); [discriminate|]. destruct t; discriminate.
  - intros (c' & St & ->). destruct St as [f s s' E|f s s' E].
    + exists (TH 0 f). cbn [mstep]. unfold mhost_step, embed. cbn [m_sh m_hosts m_kids m_reqs m_resps m_log nth_error].
      assert (G : host_gone [(hpc s, hstk s)] = false).
      { unfold host_gone. cbn. unfold host_step in E. destruct (hpc s); try reflexivity. discriminate. }
      rewrite G. pose proof (host_frame _ _ _ _ _ _ (process_state [(cpc s, cstk s)]) [] E PG) as F. rewrite F. cbn [put].
      cbn [sh hpc hstk cpc cstk reqs resps log].
      assert (S : cpc s' = cpc s /\ cstk s' = cstk s).
      { pose proof (host_frame _ _ _ _ _ _ (cpc s) (cstk s) E eq_refl) as F2. destruct s as [a1 a2 a3 a4 a5 a6 a7 a8]. cbn in F2, E. rewrite E in F2.
        inversion F2 as [X]. rewrite X. cbn. auto. }
      destruct S as [-> ->]. reflexivity.
    + exists (TC 0 f). cbn [mstep]. unfold mchild_step, embed. cbn [m_sh m_hosts m_kids m_reqs m_resps m_log nth_error].
      assert (G : existsb (fun k0 => gone (fst k0)) [(cpc s, cstk s)] = false).
      { cbn. unfold child_step in E. destruct (cpc s); try reflexivity; discriminate. }
      rewrite G. pose proof (child_frame _ _ _ _ _ HUser [] E) as F. rewrite F. cbn [put].
      cbn [sh hpc hstk cpc cstk reqs resps log].
      assert (S : hpc s' = hpc s /\ hstk s' = hstk s).
      { pose proof (child_frame _ _ _ _ _ (hpc s) (hstk s) E) as F2. destruct s as [a1 a2 a3 a4 a5 a6 a7 a8]. cbn in F2, E. rewrite E in F2.
        inversion F2 as [X]. rewrite X. cbn. auto. }
      destruct S as [-> ->]. reflexivity.
Qed.

(** C63. With one thread on each side these are exactly the executions of C32. *)
Theorem one_thread_each : forall debug spurious h k s,
  mreach debug spurious (fun _ => h) (fun _ => k) (midle 1 0) s <->
  exists c, reach debug spurious h k idle c /\ s = embed c.
Proof.
  intros debug spurious h k s. split.
  - induction 1 as [|s x s' R (c & RC & ->) St]; [exists idle; split; [constructor|reflexivity]|].
    destruct (proj1 (embed_step debug spurious h k c s') (ex_intro _ x St)) as (c' & S' & ->).
    exists c'. split; [econstructor; eauto|reflexivity].
  - intros (c & R & ->). induction R as [|c c' R IH St]; [constructor|].
    destruct (proj2 (embed_step debug spurious h k c (embed c')) (ex_intro _ c' (conj St eq_refl))) as (x & X).
    econstructor; eauto.
Qed.

(** *** A case that meets the hypotheses of the theorems on taking turns *)

Definition host_awayb (h : hstate * list hframe) : bool := match h with (HUser, []) => true | _ => false end.
Definition kid_awayb (k : cstate * list cframe) : bool := match k with (CUser, [KRun 0 0 0]) => true | _ => false end.
Fixpoint others {A} (ok : A -> bool) (skip : list nat) (j : nat) (l : list A) : bool :=
  match l with
  | [] => true
  | x :: r => (existsb (Nat.eqb j) skip || ok x) && others ok skip (S j) r
  end.
Definition in_turnb (cd : nat -> list event -> cact) (x : turn) (s : mconf) : bool :=
  match x with
  | TH t _ => others host_awayb [t] 0 (m_hosts s)
  | TC O _ => others kid_awayb [0%nat] 0 (m_kids s)
  | TC t _ => match m_kids s with (CUser, KRun _ _ _ :: _) :: _ => true | _ => false end &&
      others kid_awayb [0%nat; t] 0 (m_kids s) &&
      match nth_error (m_kids s) t with
      | Some (CUser, [KRun 0 0 0]) => match cd t (m_log s) with CReturn => false | _ => true end
      | _ => true
      end
  end.

Lemma host_awayb_ok h : host_awayb h = true -> host_away h.
Proof. destruct h as [[] [|]]; try discriminate. reflexivity. Qed.
Lemma kid_awayb_ok k : kid_awayb k = true -> kid_away k.
Proof. destruct k as [[] [|[[] [] []| |] [|]]]; try discriminate. reflexivity. Qed.
Lemma others_ok {A} (ok : A -> bool) skip : forall l j, others ok skip j l = true ->
  forall u x, nth_error l u = Some x -> In (j + u)%nat skip \/ ok x = true.
Proof.
  induction l as [|y l IH]; intros j H [|u] x N; cbn in *; try discriminate; apply andb_true_iff in H as [H1 H2].
  - injection N as ->. apply orb_true_iff in H1 as [H1|H1]; [left|right; exact H1].
    apply existsb_exists in H1 as (z & Z & E). apply Nat.eqb_eq in E. subst z. rewrite Nat.add_0_r. exact Z.
  - rewrite Nat.add_succ_r. apply (IH (S j) H2 u x N).
Qed.
Lemma in_turnb_ok cd x s : in_turnb cd x s = true -> in_turn cd x s.
Proof.
  destruct x as [t f|[|t] f]; cbn [in_turnb in_turn]; intros H.
  - intros u h NE NU. destruct (others_ok _ _ _ _ H u h NU) as [[E|[]]|E]; [cbn in E; congruence|]. apply host_awayb_ok, E.
  - intros u h NE NU. destruct (others_ok _ _ _ _ H u h NU) as [[E|[]]|E]; [cbn in E; congruence|]. apply kid_awayb_ok, E.
  - apply andb_true_iff in H as [H H3]. apply andb_true_iff in H as [H1 H2]. split; [|split].
    + intros k N. destruct (m_kids s) as [|k0 l]; [discriminate|]. injection N as ->.
      destruct k as [[] [|[d i b| |] st]]; try discriminate. unfold main_in_function. eauto.
    + intros u k N0 NE NU. destruct (others_ok _ _ _ _ H2 u k NU) as [[E|[E|[]]]|E]; [cbn in E; congruence|cbn in E; congruence|]. apply kid_awayb_ok, E.
    + intros N. rewrite N in H3. destruct (cd _ _); [discriminate|congruence].
Qed.

Fixpoint trun debug spurious hd cd (xs : list turn) (s : mconf) : option mconf :=
  match xs with
  | [] => Some s
  | x :: r => if in_turnb cd x s then match mstep debug spurious hd cd x s with Some s' => trun debug spurious hd cd r s' | None => None end else None
  end.
Lemma trun_turns debug spurious hd cd s0 : forall xs s s', turns debug spurious hd cd s0 s ->
  trun debug spurious hd cd xs s = Some s' -> turns debug spurious hd cd s0 s'.
Proof.
  induction xs as [|x xs IH]; cbn; intros s s' T H; [inversion H; subst; exact T|].
  destruct (in_turnb cd x s) eqn:I; [|discriminate]. destruct (mstep _ _ _ _ x s) as [s1|] eqn:E; [|discriminate].
  eapply IH; [|exact H]. econstructor; [exact T|apply in_turnb_ok, I|exact E].
Qed.

(** Two host threads and a thread of the library: the first host thread calls
    function 5; while that runs, the library's thread makes callback 7, whose
    handler returns 8; then the second host thread calls function 6. *)
Definition ex_hd (t : nat) (l : list event) : hact :=
  match t, length l with
  | O, O => HCall 5 50 | O, 4%nat => HReturn 8
  | 1%nat, 8%nat => HCall 6 60 | _, _ => HReturn 0
  end.
Definition ex_cd (t : nat) (l : list event) : cact :=
  match t, length l with 1%nat, 2%nat => CCallback 7 | O, _ => CReturn | _, _ => CCallback 9 end.
Definition ex_sched : list turn :=
  repeat (TH 0 false) 7 ++ repeat (TC 0 false) 6 ++ repeat (TC 1 false) 4 ++ repeat (TH 0 false) 7 ++
  repeat (TC 1 false) 8 ++ repeat (TC 0 false) 4 ++ repeat (TH 0 false) 2 ++
  repeat (TH 1 false) 7 ++ repeat (TC 0 false) 10 ++ repeat (TH 1 false) 2.

Example threads_ex : exists s, turns true false ex_hd ex_cd (midle 2 1) s /\
  (forall u h, nth_error (m_hosts s) u = Some h -> host_away h) /\
  m_log s = [EReq 5 50; EInvoke 5 50; ECallback 7; EHandle 7; EHandled 7 8; EResume 7 8; EReturn 5 50; EDone 5 50;
             EReq 6 60; EInvoke 6 60; EReturn 6 60; EDone 6 60].
Proof.
  destruct (trun true false ex_hd ex_cd ex_sched (midle 2 1)) as [s|] eqn:E; [|vm_compute in E; discriminate].
  exists s. split; [eapply trun_turns; [constructor|exact E]|]. vm_compute in E. inversion E; subst. split; [|reflexivity].
  intros [|[|u]] h N; cbn in N; try (injection N as <-; reflexivity). destruct u; discriminate.
Qed.
Example threads_ex_nonnull : forall t l i b, ex_hd t l = HCall i b -> b <> 0.
Proof. intros t l i b. unfold ex_hd. destruct t as [|[|t]]; destruct (length l) as [|[|[|[|[|[|[|[|[|n]]]]]]]]]; intros H; inversion H; lia. Qed.

Print Assumptions threads_in_turn_are_sequential.
Print Assumptions threads_in_turn_calls_complete.
Print Assumptions threads_in_turn_never_abort.
Print Assumptions threads_callbacks_in_order.
Print Assumptions background_callback_loses_call.
Print Assumptions concurrent_callbacks_swap_results.
Print Assumptions concurrent_calls_lose_one.
Print Assumptions concurrent_calls_abort_host.
Print Assumptions concurrent_callbacks_abort_sandbox.
Print Assumptions one_thread_each.
