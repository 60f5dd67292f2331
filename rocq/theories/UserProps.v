(** Claimed theorems about a program with handlers of its own (C86). *)
From Coq Require Import String Ascii List ZArith Lia Bool Permutation Arith.
From Verif Require Import Base PathModel FileTreeModel FileTreeSpec RegionModel RegionSpec DispatchModel DispatchProps HostCallsModel HostCallsSpec NetProps
  ChildCallsModel EffectsModel HandleModel OwnModel OwnSpec OwnProof OwnProps GateModel GateSpec GateProof GateProps LibsModel LibsSpec LibsProof LibsProps ParProof
  UserModel UserSpec UserProof.
Import ListNotations.
Local Open Scope Z_scope.

Section HISTORY.
Variables (debug : bool) (shm size hdr : nat -> Z).
Hypothesis M : forall i, mapping_ok (shm i) (size i) (hdr i).
Local Notation heaps := (fun i => library_heap (shm i) (size i) (hdr i)).
Local Notation uruns := (uruns debug heaps).
Local Notation ustep := (ustep debug heaps).

(** C86: each descriptor that the program opened or that one of its handlers was
    given is closed, once, or in the program's hands, or found in exactly one
    library. *)
Theorem handler_descriptor_in_one_place es w u : uruns es w ->
  (exists i n, In (i, (UDo (Open n), UDid (Opened u))) es) \/ (exists i q tag bytes kept, In (i, (USays q, UEntered tag bytes (Some u) kept)) es) ->
  (closings (base w) u = 1%nat /\ ~ keeps es u /\ forall i, ~ exported (base w) i u) \/
  (closings (base w) u = 0%nat /\ keeps es u /\ forall i, ~ exported (base w) i u) \/
  (closings (base w) u = 0%nat /\ ~ keeps es u /\ exists i, exported (base w) i u /\ forall j, exported (base w) j u -> j = i).
Proof.
  intros R O. destruct (uruns_uinv debug shm size hdr M _ _ R) as [ges V]. pose proof (u_core _ _ _ _ V) as C.
  assert (Op : opened (handled es) u).
  { destruct O as [(i & n & I1)|(i & q & tag & bytes & kept & I1)]; eexists; unfold handled; apply in_flat_map; (eexists; split; [exact I1|]); left; reflexivity. }
  assert (K : keeps es u <-> in_hand ges u) by (split; intros X; [apply (c_holds _ _ _ _ _ C), X|apply (c_back _ _ _ _ _ C); [exact Op|exact X]]).
  pose proof (in_one_library debug ges (base w) u (c_linv _ _ _ _ _ C) (proj1 (core_opened _ _ _ _ _ _ C Op))) as T. rewrite !K. exact T.
Qed.

(** C86: one that came with a request but is not passed on is open while the
    handler runs; nothing else gets at it. *)
Theorem unpassed_descriptor_waits es w i v sends : uruns es w -> In (Some v, sends) (in_progress i es) ->
  closings (base w) v = 0%nat /\ ~ keeps es v /\ (forall j, ~ exported (base w) j v) /\ forall j sends', In (Some v, sends') (in_progress j es) -> j = i.
Proof.
  intros R I1. destruct (uruns_uinv debug shm size hdr M _ _ R) as [ges V]. pose proof (u_core _ _ _ _ V) as C.
  assert (In_k : forall j s, In (Some v, s) (in_progress j es) -> In v (kepts (in_progress j es))).
  { intros j s X. unfold kepts. apply in_flat_map. eexists. split; [exact X|]. left. reflexivity. }
  destruct (c_kept _ _ _ _ _ C v (ex_intro _ i (In_k i sends I1))) as [Hv Nv]. destruct (held_open debug ges (base w) v (c_linv _ _ _ _ _ C) Hv) as [Z E].
  split; [exact Z|]. split; [intros X; apply Nv, X|]. split; [exact E|]. intros j s X. exact (u_apart _ _ _ _ V j i v (In_k j s X) (In_k i sends I1)).
Qed.

(** C86: register_callback gives the numbers 7, 8, ... of each library in turn. *)
Theorem handler_number es w i sz tk w' r : uruns es w -> ustep i (URegister sz tk) w = (w', r) ->
  r = UNumber (7 + Z.of_nat (length (registered i es))) /\ base w' = base w.
Proof.
  intros R E. destruct (uruns_uinv debug shm size hdr M _ _ R) as [ges V]. cbn [UserModel.ustep] in E.
  destruct (uinv_register debug es w ges i sz tk V) as [Er _]. rewrite Er in E. injection E as <- <-. split; reflexivity.
Qed.

(** C86: a request with the number of a registered handler, the right size and
    arguments in the sandbox's memory calls that handler, on the bytes loaded once
    each; it is given the descriptor that came, if it takes one.  Otherwise the
    descriptor is closed, and the sandbox gets -ENOSYS; no handler runs. *)
Theorem handler_called es w i q w' r rq fd sz tk : uruns es w -> uallowed es w i (USays q) -> ustep i (USays q) w = (w', r) ->
  q_msg q = Some (rq, fd) -> asks_for i es rq sz tk ->
  (fits (shm i) (size i) (hdr i) rq sz ->
    let got := received (own (lib (base w) i)) q in
    r = UEntered (cr_kind rq) (map (fun k => q_args q k (cr_data rq + Z.of_nat k)) (seq 0 (Z.to_nat sz))) (if tk then got else None) (if tk then None else got) /\
    forall u, closings (base w') u = closings (base w) u) /\
  (~ fits (shm i) (size i) (hdr i) rq sz ->
    let got := received (own (lib (base w) i)) q in
    (exists f, r = UServed (shutting f got ++ [answer (q_sends q) (-38) None])) /\
    forall u, (got = Some u -> closings (base w') u = 1%nat) /\ (got <> Some u -> closings (base w') u = closings (base w) u)).
Proof.
  intros R Al E Qm U. destruct (uruns_uinv debug shm size hdr M _ _ R) as [ges V]. split; intros F got.
  - destruct (uinv_enter debug shm size hdr M es w ges i q rq fd sz tk w' r V Al Qm U F E) as (Er & _ & _ & _ & Cl & _). split; [exact Er|exact Cl].
  - destruct (uinv_misfit debug shm size hdr M es w ges i q rq fd sz tk w' r V Al Qm U F E) as (Er & _ & _ & _ & C1 & C2 & _). split; [exact Er|]. intros u. split; [apply C1|apply C2].
Qed.

(** C86: a handler of the program runs for nothing else. *)
Theorem handler_called_only es w i o w' r tag bytes given kept : uruns es w -> uallowed es w i o -> ustep i o w = (w', r) -> r = UEntered tag bytes given kept ->
  exists q rq fd sz tk, o = USays q /\ q_msg q = Some (rq, fd) /\ asks_for i es rq sz tk /\ fits (shm i) (size i) (hdr i) rq sz /\ tag = cr_kind rq.
Proof.
  intros R Al E ->. destruct (uruns_uinv debug shm size hdr M _ _ R) as [ges V].
  destruct o as [o|no p|sz tk|q|n who|].
  - cbn [UserModel.ustep] in E. destruct (step debug o (own (lib (base w) i))) as [s' ro]. discriminate.
  - discriminate.
  - cbn [UserModel.ustep] in E. destruct (register_callback _ _). discriminate.
  - destruct (q_msg q) as [[rq fd]|] eqn:Qm.
    + destruct (for_user_dec (registered i es) rq) as [(sz & tk & U)|U].
      * pose proof Al as (_ & Wd & _). specialize (Wd _ _ Qm). destruct (fits_dec (shm i) (size i) (hdr i) (M i) rq Wd sz) as [F|F].
        -- destruct (uinv_enter debug shm size hdr M es w ges i q rq fd sz tk w' _ V Al Qm U F E) as (Er & _). injection Er as -> _ _ _. exists q, rq, fd, sz, tk. auto.
        -- destruct (uinv_misfit debug shm size hdr M es w ges i q rq fd sz tk w' _ V Al Qm U F E) as ((f & Er) & _). discriminate.
      * destruct (uinv_serve debug shm size hdr M es w ges i q w' _ V Al E) as (g' & _ & _ & evs & Er & _); [|discriminate].
        intros rq' fd' E' sz tk. rewrite Qm in E'. injection E' as <- <-. apply U.
    + destruct (uinv_serve debug shm size hdr M es w ges i q w' _ V Al E) as (g' & _ & _ & evs & Er & _); [|discriminate]. intros rq' fd' E'. congruence.
  - destruct Al as [Ip Hw]. destruct (in_progress i es) as [|[kept' sn] rest] eqn:Ic; [congruence|].
    destruct (uinv_return debug shm size hdr es w ges i kept' sn rest n who w' _ V Ic Hw E) as ((f & g & Er) & _). discriminate.
  - cbn [uallowed] in Al. destruct (in_progress i es) as [|[kept' sn] rest] eqn:Ic; [congruence|].
    destruct (uinv_throw debug shm size hdr es w ges i kept' sn rest w' _ V Ic E) as ((f & Er) & _). discriminate.
Qed.

(** C86: when the latest call of a library returns, what came with it and was not
    passed on is closed; the sandbox gets the result with the very descriptor that
    the handler returned, which is closed afterwards; nothing else is closed. *)
Theorem handler_returns es w i n who w' r kept sends rest : uruns es w -> uallowed es w i (UReturn n who) -> ustep i (UReturn n who) w = (w', r) ->
  in_progress i es = (kept, sends) :: rest ->
  (exists f g, r = UServed (shutting f kept ++ [answer sends n (option_map Some who)] ++ shutting g who)) /\
  in_progress i (es ++ [(i, (UReturn n who, r))]) = rest /\
  forall u, (kept = Some u \/ who = Some u -> closings (base w') u = 1%nat) /\ (kept <> Some u -> who <> Some u -> closings (base w') u = closings (base w) u).
Proof.
  intros R [_ Hw] E Ic. destruct (uruns_uinv debug shm size hdr M _ _ R) as [ges V].
  destruct (uinv_return debug shm size hdr es w ges i kept sends rest n who w' r V Ic Hw E) as ((f & g & ->) & _ & _ & _ & C1 & C2 & _). split; [exists f, g; reflexivity|].
  split; [rewrite in_progress_snoc; unfold stacked; cbn [fst snd]; rewrite Nat.eqb_refl, Ic; reflexivity|]. intros u. split; [apply C1|apply C2].
Qed.

(** C86: when it throws, what was not passed on is closed and there is no answer. *)
Theorem handler_throws es w i w' r kept sends rest : uruns es w -> ustep i UThrow w = (w', r) -> in_progress i es = (kept, sends) :: rest ->
  (exists f, r = UServed (shutting f kept)) /\
  in_progress i (es ++ [(i, (UThrow, r))]) = rest /\
  forall u, (kept = Some u -> closings (base w') u = 1%nat) /\ (kept <> Some u -> closings (base w') u = closings (base w) u).
Proof.
  intros R E Ic. destruct (uruns_uinv debug shm size hdr M _ _ R) as [ges V].
  destruct (uinv_throw debug shm size hdr es w ges i kept sends rest w' r V Ic E) as ((f & ->) & _ & _ & _ & C1 & C2 & _). split; [exists f; reflexivity|].
  split; [rewrite in_progress_snoc; unfold stacked; cbn [fst snd]; rewrite Nat.eqb_refl, Ic; reflexivity|]. intros u. split; [apply C1|apply C2].
Qed.

(** C86: every other request, also one that comes while handlers of the program
    run, is served as in C82 and C84 by the exports and settings of its library at
    that moment; what it is about is not in the program's hands, nor exported to
    another library, nor waiting for a handler to end; it gets one answer. *)
Theorem request_beside_handlers es w i q w' r : uruns es w -> uallowed es w i (USays q) -> ustep i (USays q) w = (w', r) ->
  (forall rq fd, q_msg q = Some (rq, fd) -> forall sz tk, ~ asks_for i es rq sz tk) ->
  exists evs, r = UServed evs /\
  (forall before o on new after, evs = before ++ Asked o on new :: after ->
    rightful (own (lib (base w) i)) (network i es) (received (own (lib (base w) i)) q) (opened_in before) o on /\
    forall u, on = Some u -> ~ keeps es u /\ (forall j, j <> i -> ~ exported (base w) j u) /\ forall j sends, ~ In (Some u, sends) (in_progress j es)) /\
  match q_msg q with
  | None => evs = []
  | Some _ => if q_sends q
      then exists before i fd after, evs = before ++ Replied i fd :: after /\ answers_in before = [] /\ answers_in after = [] /\
        forall x, fd = Some x -> exists u, x = Some u /\ In u (opened_in before) /\ In (Some u) (closed_in after)
      else answers_in evs = [Killed]
  end.
Proof.
  intros R Al E Nu. destruct (uruns_uinv debug shm size hdr M _ _ R) as [ges V]. pose proof (u_core _ _ _ _ V) as C.
  destruct (uinv_serve debug shm size hdr M es w ges i q w' r V Al E Nu) as (g' & _ & _ & evs & -> & _ & FR & _). exists evs. split; [reflexivity|].
  split; [|exact (fr_answer _ _ _ _ _ _ FR)].
  pose proof FR as FR'. rewrite <- (u_sets _ _ _ _ V) in FR'. intros before o on new aft S.
  destruct (request_home debug ges (base w) i q evs _ (c_linv _ _ _ _ _ C) FR' before o on new aft S) as [Ri Ho]. rewrite (u_sets _ _ _ _ V) in Ri.
  split; [exact Ri|]. intros u Eu. destruct (Ho u Eu) as [H1 H2]. split; [intros X; apply H1, (c_holds _ _ _ _ _ C), X|]. split; [exact H2|].
  intros j sends I1. apply H1. apply (c_kept _ _ _ _ _ C). exists j. unfold kepts. apply in_flat_map. eexists. split; [exact I1|]. left. reflexivity.
Qed.

(** C86: no event of one library changes what another finds, or its settings; and
    only the program's own actions change what a library finds or its settings:
    neither requests, nor calls of handlers or their ends. *)
Theorem handlers_change_no_export es w i o w' r j : uruns es w -> uallowed es w i o -> ustep i o w = (w', r) ->
  j <> i \/ (forall o', o <> UDo o') /\ (forall no p, o <> USet no p) ->
  policies (base w') j = policies (base w) j /\ forall p tail u, finds (base w') j p tail u <-> finds (base w) j p tail u.
Proof.
  intros R Al E D. destruct (uruns_uinv debug shm size hdr M _ _ R) as [ges V]. pose proof (u_core _ _ _ _ V) as C.
  destruct o as [o|no p|sz tk|q|n who|].
  - destruct D as [D|[D _]]; [|destruct (D o eq_refl)]. cbn [UserModel.ustep] in E. destruct (step debug o (own (lib (base w) i))) as [s' ro] eqn:S. injection E as <- _.
    destruct (uinv_do debug es w ges i o s' ro V Al S) as (_ & Ot & _). split; [cbn; apply upd_other, D|]. intros p tail u. apply Ot, D.
  - destruct D as [D|[_ D]]; [|destruct (D no p eq_refl)]. cbn [UserModel.ustep] in E. injection E as <- _. split; [cbn; apply upd_other, D|].
    intros q tail u. unfold finds. cbn. rewrite upd_other by exact D. reflexivity.
  - destruct (handler_number es w i sz tk w' r R E) as [_ ->]. split; [reflexivity|]. intros p tail u. reflexivity.
  - destruct (q_msg q) as [[rq fd]|] eqn:Qm.
    + destruct (for_user_dec (registered i es) rq) as [(sz & tk & U)|U].
      * pose proof Al as (_ & Wd & _). specialize (Wd _ _ Qm). destruct (fits_dec (shm i) (size i) (hdr i) (M i) rq Wd sz) as [F|F].
        -- destruct (uinv_enter debug shm size hdr M es w ges i q rq fd sz tk w' _ V Al Qm U F E) as (_ & P & Fi & _). split; [apply P|apply Fi].
        -- destruct (uinv_misfit debug shm size hdr M es w ges i q rq fd sz tk w' _ V Al Qm U F E) as (_ & P & Fi & _). split; [apply P|apply Fi].
      * destruct (uinv_serve debug shm size hdr M es w ges i q w' _ V Al E) as (g' & _ & N & evs & -> & -> & FR & _).
        { intros rq' fd' E' sz tk. rewrite Qm in E'. injection E' as <- <-. apply U. }
        rewrite <- (u_sets _ _ _ _ V) in FR. destruct (linv_serve _ _ _ _ _ _ _ (c_linv _ _ _ _ _ C) N FR) as [_ Fi].
        split; [cbn; unfold upd; destruct (Nat.eqb_spec j i) as [-> |]; [exact N|reflexivity]|apply Fi].
    + destruct (uinv_serve debug shm size hdr M es w ges i q w' _ V Al E) as (g' & _ & N & evs & -> & -> & FR & _); [intros rq' fd' E'; congruence|].
      rewrite <- (u_sets _ _ _ _ V) in FR. destruct (linv_serve _ _ _ _ _ _ _ (c_linv _ _ _ _ _ C) N FR) as [_ Fi].
      split; [cbn; unfold upd; destruct (Nat.eqb_spec j i) as [-> |]; [exact N|reflexivity]|apply Fi].
  - destruct Al as [Ip Hw]. destruct (in_progress i es) as [|[kept' sn] rest] eqn:Ic; [congruence|].
    destruct (uinv_return debug shm size hdr es w ges i kept' sn rest n who w' _ V Ic Hw E) as (_ & P & Fi & _). split; [apply P|apply Fi].
  - cbn [uallowed] in Al. destruct (in_progress i es) as [|[kept' sn] rest] eqn:Ic; [congruence|].
    destruct (uinv_throw debug shm size hdr es w ges i kept' sn rest w' _ V Ic E) as (_ & P & Fi & _). split; [apply P|apply Fi].
Qed.

(** C86: nothing ends in an assertion, exception or undefined behaviour of the
    library, no close fails, and a library with calls in progress exists. *)
Theorem handlers_never_break es w : uruns es w ->
  (forall i o, ~ In (i, (o, UBroke)) es /\ ~ In (i, (o, UDid Aborted)) es) /\ (forall n c, In (n, c) (closed (base w)) -> c <> None) /\
  forall i, in_progress i es <> [] -> trees (base w) i <> None.
Proof.
  intros R. split; [|split].
  - induction R as [|es w i o w' r R IH Al E]; [intros i o; split; intros []|].
    destruct (uruns_uinv debug shm size hdr M _ _ R) as [ges V].
    assert (B : r <> UBroke /\ r <> UDid Aborted).
    { destruct o as [o|no p|sz tk|q|n who|].
      - cbn [UserModel.ustep] in E. destruct (step debug o (own (lib (base w) i))) as [s' ro] eqn:S. injection E as _ <-.
        destruct (uinv_do debug es w ges i o s' ro V Al S) as (Na & _). split; congruence.
      - cbn [UserModel.ustep] in E. injection E as _ <-. split; discriminate.
      - destruct (handler_number es w i sz tk w' r R E) as [-> _]. split; discriminate.
      - destruct (q_msg q) as [[rq fd]|] eqn:Qm.
        + destruct (for_user_dec (registered i es) rq) as [(sz & tk & U)|U].
          * pose proof Al as (_ & Wd & _). specialize (Wd _ _ Qm). destruct (fits_dec (shm i) (size i) (hdr i) (M i) rq Wd sz) as [F|F].
            -- destruct (uinv_enter debug shm size hdr M es w ges i q rq fd sz tk w' _ V Al Qm U F E) as (-> & _). split; discriminate.
            -- destruct (uinv_misfit debug shm size hdr M es w ges i q rq fd sz tk w' _ V Al Qm U F E) as ((f & ->) & _). split; discriminate.
          * destruct (uinv_serve debug shm size hdr M es w ges i q w' _ V Al E) as (g' & _ & _ & evs & -> & _); [|split; discriminate].
            intros rq' fd' E' sz tk. rewrite Qm in E'. injection E' as <- <-. apply U.
        + destruct (uinv_serve debug shm size hdr M es w ges i q w' _ V Al E) as (g' & _ & _ & evs & -> & _); [intros rq' fd' E'; congruence|split; discriminate].
      - destruct Al as [Ip Hw]. destruct (in_progress i es) as [|[kept' sn] rest] eqn:Ic; [congruence|].
        destruct (uinv_return debug shm size hdr es w ges i kept' sn rest n who w' _ V Ic Hw E) as ((f & g & ->) & _). split; discriminate.
      - cbn [uallowed] in Al. destruct (in_progress i es) as [|[kept' sn] rest] eqn:Ic; [congruence|].
        destruct (uinv_throw debug shm size hdr es w ges i kept' sn rest w' _ V Ic E) as ((f & ->) & _). split; discriminate. }
    intros i' o'. destruct (IH i' o') as [I1 I2]. split; intros X; apply in_snoc in X as [X|X]; auto; injection X as _ _ X; tauto.
  - destruct (uruns_uinv debug shm size hdr M _ _ R) as [ges V]. destruct (v_runs _ _ _ (c_linv _ _ _ _ _ (u_core _ _ _ _ V)) 0%nat) as (e0 & R0 & _).
    exact (proj1 (exported_closes_succeed debug e0 _ R0)).
  - destruct (uruns_uinv debug shm size hdr M _ _ R) as [ges V]. exact (u_there _ _ _ _ V).
Qed.

(** C86: the two events of a call are together one run of CallbackDispatcher::handle
    (C20), whatever the callables return. *)
Theorem call_and_return_are_handle es w i rq fd sz tk (fn : callables) (rd : reads) sends : uruns es w ->
  is_word (cr_kind rq) -> is_word (cr_size rq) -> is_word (cr_data rq) -> asks_for i es rq sz tk -> fits (shm i) (size i) (hdr i) rq sz ->
  let bytes := map (fun k => rd k (cr_data rq + Z.of_nat k)) (seq 0 (Z.to_nat sz)) in
  let given := if tk then fd else None in
  let ret := fn (cr_kind rq) bytes given in
  exists loads later,
    entered (snd (fst (select_handler (disps w i) (heaps i) fn rd rq fd))) = Some (cr_kind rq, bytes, given, later) /\
    DispatchModel.handle (disps w i) (heaps i) fn rd (Some (rq, fd)) sends =
      map ALoad loads ++ [AInvoke (cr_kind rq) bytes given] ++ later ++ finish (r_int ret) (r_fd ret) sends.
Proof.
  intros R W1 W2 W3 U F bytes given ret. destruct (uruns_uinv debug shm size hdr M _ _ R) as [ges V].
  assert (D : d_handlers (disps w i) = numbering tuple_size (slots (registered i es))) by (rewrite (u_disp _ _ _ _ V i); reflexivity).
  destruct (user_fits (shm i) (size i) (hdr i) (M i) _ _ D fn rd rq fd (conj W1 (conj W2 W3)) sz tk U F) as (later & _ & En & loads & A & Re & Nn).
  exists loads, later. split; [exact En|]. cbn [DispatchModel.handle]. destruct (select_handler _ _ _ _ _ _) as [[re acts] rst]. cbn [fst snd] in A, Re, Nn. subst.
  cbn [close_opt]. rewrite app_nil_r, <- app_assoc. reflexivity.
Qed.
End HISTORY.

(** A history that meets the hypotheses: a directory is exported at /data; two
    handlers are registered, of which the first takes a descriptor.  The sandbox
    calls the first, which is given one; while it runs, the sandbox calls the
    second and opens /data/a; the second ends by returning, and the first exports
    what it was given and returns the descriptor of a file that it opens.  A last
    request has the wrong size, and a call of the second handler throws. *)
Definition says (rq : crequest) (fd : option Z) : uop := USays (demo_request rq fd [] 3).
Definition demo_user : list uop :=
  [UDo (Open 3); UDo (Add (tx "/data") false (Some 0%nat)); URegister 8 true; URegister 4 false;
   says (CRequest 7 8 4900) (Some 33); says (CRequest 8 4 4900) (Some 34); says (CRequest 0 16 4900) None; UReturn 5 None;
   UDo (Add (tx "/log") true (Some 1%nat)); UDo (Open 6); UReturn 0 (Some 4%nat);
   says (CRequest 8 5 4900) (Some 34); says (CRequest 8 4 4900) (Some 34); UThrow; UDo Drop].
Local Notation demo_heaps := (fun i : nat => library_heap 4096 4096 64).
Fixpoint run_user (w : user) (os : list uop) : user * uhistory :=
  match os with
  | [] => (w, [])
  | o :: r => let x := ustep true demo_heaps 0%nat o w in let y := run_user (fst x) r in (fst y, (0%nat, (o, snd x)) :: snd y)
  end.
Example demo_user_result :
  map (fun e => snd (snd e)) (snd (run_user new_user demo_user)) =
    [UDid (Opened 0); UDid (Answer true); UNumber 7; UNumber 8;
     UEntered 7 (map ascii_of_nat [136; 19; 0; 0; 0; 0; 0; 0]%nat) (Some 1%nat) None;
     UEntered 8 (map ascii_of_nat [136; 19; 0; 0]%nat) None (Some 2%nat);
     UServed [Asked (KOpenat2 3 (Some (tx "a")) 0 0 8) (Some 0%nat) (Some 3%nat); Replied (-38) (Some (Some 3%nat)); Asked (KClose 100) (Some 3%nat) None];
     UServed [Asked (KClose 34) (Some 2%nat) None; Replied 5 None];
     UDid (Answer true); UDid (Opened 4); UServed [Replied 0 (Some (Some 4%nat)); Asked (KClose 6) (Some 4%nat) None];
     UServed [Asked (KClose 34) (Some 5%nat) None; Replied (-38) None];
     UEntered 8 (map ascii_of_nat [136; 19; 0; 0]%nat) None (Some 6%nat); UServed [Asked (KClose 34) (Some 6%nat) None]; UDid Done] /\
  table (base (fst (run_user new_user demo_user))) = [] /\
  closed (base (fst (run_user new_user demo_user))) = 
    [(100, Some 3%nat); (34, Some 2%nat); (6, Some 4%nat); (34, Some 5%nat); (34, Some 6%nat); (3, Some 0%nat); (33, Some 1%nat)].
Proof. vm_compute. repeat split. Qed.

Ltac next_event E pre := destruct pre as [|? pre]; cbn [app] in E; [injection E as <- _|injection E as <- E].
Ltac demo_says f := split; [vm_compute; discriminate|]; split; [intros rq fd [= <- <-]; repeat split; solve [discriminate | reflexivity]|];
  split; [first [apply NoDup_nil|apply NoDup_cons; [intros []|apply NoDup_nil]]|]; split; [first [solve [intros n []]|intros n [<-|[]]; split; [lia|vm_compute; reflexivity]]|];
  apply demo_fair; [vm_compute; left; reflexivity|]; vm_compute; intros x H; repeat (destruct H as [<-|H]; [reflexivity|]); destruct H.
Example demo_user_runs : (forall i : nat, mapping_ok 4096 4096 64) /\
  uruns true demo_heaps (snd (run_user new_user demo_user)) (fst (run_user new_user demo_user)).
Proof.
  split; [intros i; unfold mapping_ok; repeat split; try lia; reflexivity|].
  assert (G : forall os es w, uruns true demo_heaps es w ->
    (forall pre o post, os = pre ++ o :: post -> uallowed (es ++ snd (run_user w pre)) (fst (run_user w pre)) 0%nat o) ->
    uruns true demo_heaps (es ++ snd (run_user w os)) (fst (run_user w os))).
  { induction os as [|o os IH]; intros es w R A; cbn [run_user fst snd]; [rewrite app_nil_r; exact R|].
    pose proof (A [] o os eq_refl) as A0. cbn [run_user fst snd] in A0. rewrite app_nil_r in A0.
    pose proof (uruns_snoc _ _ _ _ _ _ _ _ R A0 (surjective_pairing (ustep true demo_heaps 0%nat o w))) as R1.
    specialize (IH _ _ R1). rewrite <- app_assoc in IH. apply IH. intros pre o' post E.
    pose proof (A (o :: pre) o' post) as A1. cbn [run_user fst snd] in A1. rewrite <- app_assoc. apply A1. rewrite E. reflexivity. }
  apply (G demo_user [] new_user); [constructor|]. cbn [app].
  intros pre o post E. unfold demo_user in E.
  next_event E pre. { split; [|exact Logic.I]. cbn. split; [lia|reflexivity]. }
  next_event E pre. { split; [|exact Logic.I]. split; [discriminate|]. split; [reflexivity|]. intros u [= <-]. apply holdsb_ok. vm_compute. reflexivity. }
  next_event E pre. { cbn. split; [lia|reflexivity]. }
  next_event E pre. { cbn. split; [lia|reflexivity]. }
  next_event E pre. { demo_says 3. }
  next_event E pre. { demo_says 3. }
  next_event E pre. { demo_says 3. }
  next_event E pre. { split; [vm_compute; discriminate|]. discriminate. }
  next_event E pre. { split; [|exact Logic.I]. split; [vm_compute; discriminate|]. split; [reflexivity|]. intros u [= <-]. apply holdsb_ok. vm_compute. reflexivity. }
  next_event E pre. { split; [|exact Logic.I]. split; [lia|vm_compute; reflexivity]. }
  next_event E pre. { split; [vm_compute; discriminate|]. intros u [= <-]. apply holdsb_ok. vm_compute. reflexivity. }
  next_event E pre. { demo_says 3. }
  next_event E pre. { demo_says 3. }
  next_event E pre. { vm_compute. discriminate. }
  next_event E pre. { split; [vm_compute; discriminate|vm_compute; reflexivity]. }
  destruct pre; discriminate.
Qed.
(** The requests of that history are of all the kinds that the theorems speak of. *)
Example demo_user_asks :
  let es := snd (run_user new_user (firstn 4 demo_user)) in
  asks_for 0 es (CRequest 7 8 4900) 8 true /\ fits 4096 4096 64 (CRequest 7 8 4900) 8 /\
  asks_for 0 es (CRequest 8 5 4900) 4 false /\ ~ fits 4096 4096 64 (CRequest 8 5 4900) 4 /\
  (forall sz tk, ~ asks_for 0 es (CRequest 0 16 4900) sz tk) /\
  in_progress 0 (snd (run_user new_user (firstn 7 demo_user))) = [(Some 2%nat, true); (None, true)] /\
  keeps (snd (run_user new_user (firstn 7 demo_user))) 1.
Proof.
  split; [exists 0%nat; split; reflexivity|]. split; [unfold fits; cbn; lia|]. split; [exists 1%nat; split; reflexivity|]. split; [unfold fits; cbn; lia|].
  split; [intros sz tk (k & E & _); cbn [cr_kind] in E; lia|]. split; [vm_compute; reflexivity|]. apply holdsb_ok. vm_compute. reflexivity.
Qed.
Print Assumptions handler_descriptor_in_one_place.
Print Assumptions unpassed_descriptor_waits.
Print Assumptions handler_number.
Print Assumptions handler_called.
Print Assumptions handler_called_only.
Print Assumptions handler_returns.
Print Assumptions handler_throws.
Print Assumptions request_beside_handlers.
Print Assumptions handlers_change_no_export.
Print Assumptions handlers_never_break.
Print Assumptions call_and_return_are_handle.
