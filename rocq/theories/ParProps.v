(** Claimed theorems about libraries used by several threads (C85). *)
From Coq Require Import String Ascii List ZArith Lia Bool Permutation Arith.
From Verif Require Import Base PathModel FileTreeModel FileTreeSpec RegionModel RegionSpec DispatchModel HostCallsModel HostCallsSpec NetProps
  HandleModel OwnModel OwnSpec OwnProof OwnProps GateModel GateSpec GateProof GateProps LibsModel LibsSpec LibsProof LibsProps ParModel ParSpec ParProof.
Import ListNotations.
Local Open Scope Z_scope.

Section KEPT.
Variable debug : bool.
Lemma drop_keeps n (k : list (Z * nat)) m u v : NoDup (map fst k) -> lookup n k = Some v -> In (m, u) k -> In (m, u) (drop n k) \/ m = n /\ u = v.
Proof.
  induction k as [|[x y] k IH]; [intros _ _ []|]. cbn [map fst lookup drop]. intros N L I1. inversion N as [|? ? N1 N2]; subst.
  destruct (Z.eqb_spec x n) as [->|D].
  - injection L as ->. destruct I1 as [X|X]; [injection X as -> ->; auto|auto].
  - destruct I1 as [X|X]; [injection X as -> ->; left; left; reflexivity|]. destruct (IH N2 L X) as [Y|Y]; [left; right; exact Y|auto].
Qed.
Lemma drop_nodup n (k : list (Z * nat)) : NoDup (map fst k) -> NoDup (map fst (drop n k)).
Proof.
  induction k as [|[x y] k IH]; [auto|]. cbn [map fst drop]. intros N. inversion N as [|? ? N1 N2]; subst. destruct (x =? n); [exact N2|].
  cbn. constructor; [|auto]. intros X. apply N1. apply in_map_iff in X as ([a b] & <- & X). apply drop_incl in X. apply (in_map fst) in X. exact X.
Qed.
Lemma destroy_keeps fds : forall k c k' c' m u, destroy debug fds k c = Some (k', c') -> NoDup (map fst k) ->
  In (m, u) k \/ In (m, Some u) c -> In (m, u) k' \/ In (m, Some u) c'.
Proof.
  induction fds as [|n fds IH]; intros k c k' c' m u D N I1; cbn [destroy] in D; [injection D as <- <-; exact I1|].
  destruct (n <? 0); [eapply IH; eauto|]. destruct (lookup n k) as [v|] eqn:L.
  - eapply IH; [exact D|apply drop_nodup, N|]. destruct I1 as [I1|I1]; [|right; apply in_or_app; auto].
    destruct (drop_keeps n k m u v N L I1) as [X|[-> ->]]; [auto|]. right. apply in_or_app. right. left. reflexivity.
  - destruct debug; [discriminate|]. eapply IH; [exact D|exact N|]. destruct I1 as [I1|I1]; [auto|right; apply in_or_app; auto].
Qed.
Lemma step_keeps o s s' r m u : step debug o s = (s', r) -> NoDup (map fst (kern s)) -> In (m, u) (kern s) -> In (m, u) (kern s') \/ In (m, Some u) (closes s').
Proof.
  intros E N I1. destruct o as [n|p file who|v|]; cbn [step] in E.
  - injection E as <- _. left. apply in_or_app. auto.
  - destruct (tree s) as [t|]; [|injection E as <- _; auto]. cbv zeta in E. destruct (own_handle _ _ _) as [[[ok t'] dead]| | | |]; try (injection E as <- _; auto).
    destruct (destroy debug dead _ _) as [[k c]|] eqn:D; injection E as <- _; [|auto]. eapply destroy_keeps; eauto.
  - cbv zeta in E. destruct (destroy debug [_] _ _) as [[k c]|] eqn:D; injection E as <- _; [|auto]. eapply destroy_keeps; eauto.
  - destruct (tree s) as [t|]; [|injection E as <- _; auto]. destruct (destroy debug _ _ _) as [[k c]|] eqn:D; injection E as <- _; [|auto]. eapply destroy_keeps; eauto.
Qed.
Lemma micro_keeps x s s' e m u : micro_step debug x s = Ret (s', e) -> NoDup (map fst (kern s)) -> In (m, u) (kern s) -> In (m, u) (kern s') \/ In (m, Some u) (closes s').
Proof.
  intros E N I1. destruct x as [o r|n fd|]; cbn [micro_step] in E; [|injection E as <- _; auto|injection E as <- _; auto].
  unfold asks in E. cbv zeta in E. destruct o; try (injection E as <- _; auto; fail).
  - destruct (0 <=? fst r); injection E as <- _; [left; apply in_or_app; auto|auto].
  - destruct (0 <=? fst r); injection E as <- _; [left; apply in_or_app; auto|auto].
  - destruct (destroy debug _ _ _) as [[k c]|] eqn:D; [|discriminate]. injection E as <- _. eapply destroy_keeps; eauto.
Qed.
Lemma micro_new x s s' o on u : micro_step debug x s = Ret (s', Asked o on (Some u)) -> u = next s.
Proof.
  intros E. destruct x as [o' r|n fd|]; cbn [micro_step] in E; [|discriminate|discriminate].
  unfold asks in E. cbv zeta in E. destruct o'; try discriminate.
  - destruct (0 <=? fst r); [|discriminate]. injection E as _ _ _ E. auto.
  - destruct (0 <=? fst r); [|discriminate]. injection E as _ _ _ E. auto.
  - destruct (destroy debug _ _ _) as [[k c]|]; discriminate.
Qed.
Lemma closed_counts s n u : In (n, Some u) (closes s) -> times_closed s u <> 0%nat.
Proof.
  intros I1 X. unfold times_closed in X. apply length_zero_iff_nil in X.
  assert (Y : In (n, Some u) (filter (fun c => match snd c with Some w => Nat.eqb w u | None => false end) (closes s))) by (apply filter_In; split; [exact I1|cbn; apply Nat.eqb_refl]).
  rewrite X in Y. destruct Y.
Qed.
End KEPT.

Section HISTORY.
Variables (debug : bool) (shm size hdr : nat -> Z).
Hypothesis M : forall i, mapping_ok (shm i) (size i) (hdr i).
Local Notation heaps := (fun i => library_heap (shm i) (size i) (hdr i)).
Local Notation pruns := (pruns debug heaps).

(** C85: at every moment, however the steps of the requests of all libraries are
    mixed with each other and with what the program does, each descriptor that the
    program opened is closed, once, or in the program's hands, or found in exactly
    one library. *)
Theorem parallel_descriptor_in_one_library es w n u :
  pruns es w -> In (Open n, Opened u) (uses es) ->
  (closings (now w) u = 1%nat /\ ~ holds (uses es) u /\ forall i, ~ exported (now w) i u) \/
  (closings (now w) u = 0%nat /\ holds (uses es) u /\ forall i, ~ exported (now w) i u) \/
  (closings (now w) u = 0%nat /\ ~ holds (uses es) u /\ exists i, exported (now w) i u /\ forall j, exported (now w) j u -> j = i).
Proof.
  intros R O. destruct (pruns_pinv debug shm size hdr M _ _ R) as (ges & PG & PO & V).
  assert (Op : opened (uses es) u) by (exists n; exact O).
  assert (H : in_hand ges u <-> holds (uses es) u) by (split; [apply (p_back _ _ _ _ _ _ V), Op|apply (p_holds _ _ _ _ _ _ V)]).
  rewrite <- H. apply (in_one_library debug ges (now w) u (p_ghost _ _ _ _ _ _ V)). exists n. apply (p_sub _ _ _ _ _ _ V), O.
Qed.

(** C85: no step in any library ends in an assertion, exception or undefined
    behaviour, and no close fails. *)
Theorem parallel_never_breaks es w : pruns es w ->
  (forall i o, ~ In (i, (o, PBroke)) es /\ ~ In (i, (o, PDid Aborted)) es) /\ forall n c, In (n, c) (closed (now w)) -> c <> None.
Proof.
  intros R. split.
  - induction R as [|es w i o w' r R IH Al E]; [intros i o; split; intros []|].
    destruct (pruns_pinv debug shm size hdr M _ _ R) as (ges & PG & PO & V).
    assert (B : r <> PBroke /\ r <> PDid Aborted).
    { destruct o as [o|no p|q|].
      - cbn [pstep] in E. change (St (trees (now w) i) (table (now w)) (fresh (now w)) (closed (now w))) with (own (lib (now w) i)) in E.
        destruct (step debug o (own (lib (now w) i))) as [s' ro] eqn:S. injection E as _ <-.
        destruct (pinv_host debug _ _ _ _ _ _ _ _ _ V Al S) as (N & _). split; congruence.
      - cbn [pstep] in E. injection E as _ <-. split; discriminate.
      - destruct (pinv_begin debug shm size hdr M _ _ _ _ _ _ _ _ _ V Al E) as (got & ges' & PG' & PO' & -> & _). split; discriminate.
      - destruct (pinv_next debug shm size hdr _ _ _ _ _ _ _ _ V Al E) as (e & q & got & evs & ges' & PG' & PO' & -> & _). split; discriminate. }
    intros i' o'. destruct (IH i' o') as [I1 I2]. split; intros X; apply in_snoc in X as [X|X]; auto; injection X as _ _ X; destruct B; congruence.
  - destruct (pruns_pinv debug shm size hdr M _ _ R) as (ges & PG & PO & V). destruct (v_runs _ _ _ (p_ghost _ _ _ _ _ _ V) 0%nat) as (e0 & R0 & _).
    exact (proj1 (exported_closes_succeed debug e0 _ R0)).
Qed.

(** C85: whatever happens to one library, every other library keeps its settings
    and what it still has to do for a request it is serving, and finds the same
    things at the same paths. *)
Theorem parallel_others_unchanged es w i o w' r j : pruns es w -> pallowed es w i o -> pstep debug heaps i o w = (w', r) -> j <> i ->
  policies (now w') j = policies (now w) j /\ (trees (now w') j = None <-> trees (now w) j = None) /\ todo w' j = todo w j /\
  forall p tail u, finds (now w') j p tail u <-> finds (now w) j p tail u.
Proof.
  intros R Al E D. destruct (pruns_pinv debug shm size hdr M _ _ R) as (ges & PG & PO & V).
  destruct o as [o|no np|q|].
  - cbn [pstep] in E. change (St (trees (now w) i) (table (now w)) (fresh (now w)) (closed (now w))) with (own (lib (now w) i)) in E.
    destruct (step debug o (own (lib (now w) i))) as [s' ro] eqn:S. injection E as <- _.
    destruct (pinv_host debug _ _ _ _ _ _ _ _ _ V Al S) as (_ & F & _). split; [cbn; apply upd_other, D|]. split; [cbn; rewrite upd_other by exact D; reflexivity|].
    split; [reflexivity|]. intros p tail u. exact (F j p tail u D).
  - cbn [pstep] in E. injection E as <- _. split; [cbn; apply upd_other, D|]. split; [cbn; rewrite upd_other by exact D; reflexivity|].
    split; [reflexivity|]. intros p tail u. unfold finds. cbn. rewrite upd_other by exact D. reflexivity.
  - assert (T : todo w' j = todo w j).
    { cbn [pstep] in E. destruct (tree _); [|injection E as <- _; reflexivity]. destruct (script _ _ _ _ _ _); injection E as <- _; try reflexivity. cbn. apply upd_other, D. }
    destruct (pinv_begin debug shm size hdr M _ _ _ _ _ _ _ _ _ V Al E) as (got & ges' & PG' & PO' & _ & _ & S & _ & F & _).
    destruct (S j) as [-> ->]. split; [reflexivity|]. split; [reflexivity|]. split; [exact T|]. apply F.
  - assert (T : todo w' j = todo w j).
    { cbn [pstep] in E. destruct (todo w i); [injection E as <- _; reflexivity|]. destruct (micro_step _ _ _) as [[? ?]| | | |]; injection E as <- _; try reflexivity. cbn. apply upd_other, D. }
    destruct (pinv_next debug shm size hdr _ _ _ _ _ _ _ _ V Al E) as (e & q & got & evs & ges' & PG' & PO' & _ & _ & _ & _ & S & F).
    destruct (S j) as [-> ->]. split; [reflexivity|]. split; [reflexivity|]. split; [exact T|]. apply F.
Qed.

(** C85: receiving a request and each step of serving it leave all exports and
    settings, of the same library too, as they are. *)
Theorem parallel_request_changes_no_export es w i o w' r : pruns es w -> pallowed es w i o -> pstep debug heaps i o w = (w', r) ->
  (o = PNext \/ exists q, o = PBegin q) ->
  forall j, policies (now w') j = policies (now w) j /\ (trees (now w') j = None <-> trees (now w) j = None) /\
    forall p tail u, finds (now w') j p tail u <-> finds (now w) j p tail u.
Proof.
  intros R Al E O j. destruct (pruns_pinv debug shm size hdr M _ _ R) as (ges & PG & PO & V). destruct O as [->|[q ->]].
  - destruct (pinv_next debug shm size hdr _ _ _ _ _ _ _ _ V Al E) as (e & q & got & evs & ges' & PG' & PO' & _ & _ & _ & _ & S & F).
    destruct (S j) as [-> ->]. split; [reflexivity|]. split; [reflexivity|]. apply F.
  - destruct (pinv_begin debug shm size hdr M _ _ _ _ _ _ _ _ _ V Al E) as (got & ges' & PG' & PO' & _ & _ & S & _ & F & _).
    destruct (S j) as [-> ->]. split; [reflexivity|]. split; [reflexivity|]. apply F.
Qed.

(** C85: as long as the program has a descriptor in its hands, its number stands
    for the same thing, whatever any thread does. *)
Theorem parallel_numbers_kept es w i o w' r n u : pruns es w -> pallowed es w i o -> pstep debug heaps i o w = (w', r) ->
  lookup n (table (now w)) = Some u -> holds (uses (es ++ [(i, (o, r))])) u -> lookup n (table (now w')) = Some u.
Proof.
  intros R Al E L H. destruct (pruns_pinv debug shm size hdr M _ _ R) as (ges & PG & PO & V).
  destruct (pruns_pinv debug shm size hdr M _ _ (pruns_snoc _ _ _ _ _ _ _ _ R Al E)) as (ges' & PG' & PO' & V').
  destruct (table_nodup debug _ _ (p_ghost _ _ _ _ _ _ V)) as (N1 & _). destruct (table_nodup debug _ _ (p_ghost _ _ _ _ _ _ V')) as (N1' & _).
  destruct (held_open debug _ _ _ (p_ghost _ _ _ _ _ _ V') (p_holds _ _ _ _ _ _ V' u H)) as [C _].
  apply (lookup_in _ _ _ N1) in L. apply (lookup_in _ _ _ N1').
  assert (K : In (n, u) (table (now w')) \/ In (n, Some u) (closed (now w'))).
  { destruct o as [o|no p|q|]; cbn [pstep] in E.
    - change (St (trees (now w) i) (table (now w)) (fresh (now w)) (closed (now w))) with (own (lib (now w) i)) in E.
      destruct (step debug o (own (lib (now w) i))) as [s' ro] eqn:S. injection E as <- _. exact (step_keeps debug _ _ _ _ _ _ S N1 L).
    - injection E as <- _. auto.
    - destruct (tree _); [|injection E as <- _; auto]. destruct (script _ _ _ _ _ _); injection E as <- _; auto.
      left. cbn [now after table own]. rewrite receive_is. cbn [kern]. apply in_or_app. auto.
    - destruct (todo w i) as [|m l]; [injection E as <- _; auto|]. destruct (micro_step debug m _) as [[s' e]| | | |] eqn:S; injection E as <- _; auto.
      exact (micro_keeps debug _ _ _ _ _ _ S N1 L). }
  destruct K as [K|K]; [exact K|]. exfalso. exact (closed_counts (own (lib (now w') 0)) n u K C).
Qed.

(** C85: what comes with a request is neither the program's nor exported, nor came
    with or was opened for a request of another library. *)
Theorem parallel_received_is_new es w i q w' r : pruns es w -> pallowed es w i (PBegin q) -> pstep debug heaps i (PBegin q) w = (w', r) ->
  exists got, r = PBegun got /\ (got <> None <-> exists rq n, q_msg q = Some (rq, Some n)) /\
  forall u, got = Some u -> ~ opened (uses es) u /\ forall j, ~ exported (now w') j u /\ (j <> i -> ~ In u (brought j es)).
Proof.
  intros R Al E. destruct (pruns_pinv debug shm size hdr M _ _ R) as (ges & PG & PO & V).
  destruct (pinv_begin debug shm size hdr M _ _ _ _ _ _ _ _ _ V Al E) as (got & ges' & PG' & PO' & -> & V' & _ & _ & _ & G).
  exists got. split; [reflexivity|]. split.
  - unfold sent_of in G. destruct (q_msg q) as [[rq [n|]]|]; split.
    + intros _. eauto.
    + intros _ X. apply G in X. discriminate.
    + intros X. destruct X. apply G. reflexivity.
    + intros (? & ? & X). discriminate.
    + intros X. destruct X. apply G. reflexivity.
    + intros (? & ? & X). discriminate.
  - intros u ->. set (es' := es ++ _) in *.
    assert (B : In u (brought i es')) by (unfold es'; rewrite brought_app; apply in_or_app; right; cbn; rewrite Nat.eqb_refl; left; reflexivity).
    destruct (p_brought _ _ _ _ _ _ V' i u B) as (_ & N & C). split; [intros X; apply N; unfold es'; rewrite uses_app; destruct X as [n X]; exists n; apply in_or_app; auto|].
    intros j. split.
    + intros X. destruct (exported_open debug _ _ _ _ (p_ghost _ _ _ _ _ _ V') X) as (C0 & H0 & _). destruct C as [C|C]; [lia|contradiction].
    + intros D X. apply D. apply (p_apart _ _ _ _ _ _ V' j i u); [|exact B]. unfold es'. rewrite brought_app. apply in_or_app. auto.
Qed.

(** C85: each step of a request is rightful by the exports and settings of the
    library it came from, at the moment of the step; what it is about is neither in
    the program's hands, nor exported to another library, nor did it come with or
    was opened for a request of another library.  What it opens is new and opened
    through one of these; what is sent to the sandbox was opened for the request
    that is answered and is still open. *)
Theorem parallel_step_stays_in_its_library es w i w' r : pruns es w -> pallowed es w i PNext -> pstep debug heaps i PNext w = (w', r) ->
  exists e q got before, r = PSeen e /\ latest i es = Some (q, got, before) /\
  match e with
  | Asked o on new =>
      rightful (own (lib (now w) i)) (sets i es) got (opened_in before) o on /\
      (forall u, on = Some u -> ~ holds (uses es) u /\ forall j, j <> i -> ~ exported (now w) j u /\ ~ In u (brought j es)) /\
      (forall u, new = Some u -> on <> None /\ ~ opened (uses es) u /\ forall j, ~ exported (now w) j u /\ ~ In u (brought j es))
  | Replied n fd => q_sends q = true /\ forall x, fd = Some x -> exists u, x = Some u /\ In u (opened_in before) /\ closings (now w) u = 0%nat
  | Killed => q_sends q = false
  end.
Proof.
  intros R Al E. destruct (pruns_pinv debug shm size hdr M _ _ R) as (ges & PG & PO & V).
  destruct (pinv_next debug shm size hdr _ _ _ _ _ _ _ _ V Al E) as (e & q & got & evs & ges' & PG' & PO' & -> & La & Pr & _).
  exists e, q, got, evs. split; [reflexivity|]. split; [exact La|]. destruct e as [o on new|n fd|]; cbn [proper] in Pr; [|exact Pr|exact Pr].
  destruct Pr as (Ri & Nw & Wh). split; [exact Ri|].
  assert (Ex : forall j u, exported (now w) j u -> forall k, ~ In u (brought k es)).
  { intros j u F k B. destruct (exported_open debug _ _ _ _ (p_ghost _ _ _ _ _ _ V) F) as (C0 & H0 & _).
    destruct (p_brought _ _ _ _ _ _ V k u B) as (_ & _ & [C|C]); [lia|contradiction]. }
  split.
  - intros u ->. destruct (Wh u eq_refl) as [F|B].
    + split; [intros H; exact (proj1 (proj2 (exported_open debug _ _ _ _ (p_ghost _ _ _ _ _ _ V) F)) (p_holds _ _ _ _ _ _ V u H))|].
      intros j D. split; [intros Fj; apply D; exact (v_apart _ _ _ (p_ghost _ _ _ _ _ _ V) j i u Fj F)|exact (Ex i u F j)].
    + split; [intros H; exact (proj1 (proj2 (p_brought _ _ _ _ _ _ V i u B)) (proj1 H))|].
      intros j D. split; [intros Fj; exact (Ex j u Fj i B)|intros Bj; apply D; exact (p_apart _ _ _ _ _ _ V j i u Bj B)].
  - intros u ->. split; [apply Nw; discriminate|].
    assert (Eu : u = fresh (now w)).
    { cbn [pstep] in E. destruct (todo w i) as [|m l]; [discriminate|].
      destruct (micro_step debug m _) as [[s' e]| | | |] eqn:S; try discriminate. injection E as _ ->. exact (micro_new debug _ _ _ _ _ _ S). }
    split.
    + intros [n X]. apply (p_sub _ _ _ _ _ _ V) in X. assert (Y : (u < fresh (now w))%nat) by (apply (v_opened _ _ _ (p_ghost _ _ _ _ _ _ V)); exists n; exact X). lia.
    + intros j. split; [intros F; destruct (exported_open debug _ _ _ _ (p_ghost _ _ _ _ _ _ V) F) as (_ & _ & Y); lia|].
      intros B. destruct (p_brought _ _ _ _ _ _ V j u B) as (Y & _). lia.
Qed.

(** C85: when a library is done with a request, it has answered it exactly once,
    and has closed what came with it and what it opened for it, once each, except
    what a successful openat (kind 3) leaves open. *)
Theorem parallel_request_finished es w i q got evs : pruns es w -> latest i es = Some (q, got, evs) -> todo w i = [] ->
  match q_msg q with
  | None => evs = [] /\ got = None
  | Some (rq, _) =>
      (if q_sends q then exists n fd, answers_in evs = [Replied n fd] else answers_in evs = [Killed]) /\
      (forall u, got = Some u -> closings (now w) u = 1%nat) /\
      (forall u, In u (opened_in evs) -> closings (now w) u = 1%nat \/ cr_kind rq = 3)
  end.
Proof.
  intros R La Td. destruct (pruns_pinv debug shm size hdr M _ _ R) as (ges & PG & PO & V).
  pose proof (p_quiet _ _ _ _ _ _ V i) as Q. unfold quiet in Q. rewrite La in Q. destruct (q_msg q) as [[rq sent]|]; [|tauto].
  pose proof (r_tidy _ _ _ _ _ _ _ _ _ _ Q) as T. rewrite Td in T. inversion T as [O HO EG EO| | | | | | | | | |].
  assert (Gn : PG i = []) by (destruct (PG i); [reflexivity|discriminate]).
  split; [|split].
  - pose proof (r_answer _ _ _ _ _ _ _ _ _ _ Q) as An. rewrite Td in An. cbn [ends flat_map] in An. rewrite app_nil_r in An.
    assert (K : answered evs = map (fun e => match e with Replied _ _ => true | _ => false end) (answers_in evs)).
    { clear. induction evs as [|[o on nw|n fd|] l IH]; cbn; [reflexivity|exact IH|f_equal; exact IH|f_equal; exact IH]. }
    assert (K2 : forall e, In e (answers_in evs) -> match e with Asked _ _ _ => False | _ => True end).
    { intros e X. unfold answers_in in X. apply filter_In in X as [_ X]. destruct e; [discriminate|exact Logic.I|exact Logic.I]. }
    rewrite An in K. destruct (answers_in evs) as [|e [|? ?]]; try discriminate. pose proof (K2 e (or_introl eq_refl)) as K3. injection K as K.
    rewrite K. destruct e; [contradiction|eauto|reflexivity].
  - intros u Gu. destruct (r_gclosed _ _ _ _ _ _ _ _ _ _ Q u Gu) as [X|X]; [rewrite Gn in X; destruct X|exact X].
  - intros u Ou. destruct (r_oclosed _ _ _ _ _ _ _ _ _ _ Q u Ou) as [X|X]; [|auto]. right. apply Z.eqb_eq. destruct (cr_kind rq =? 3); [reflexivity|].
    assert (On : PO i = []) by (specialize (HO eq_refl); subst O; destruct (PO i); [reflexivity|discriminate]). rewrite On in X. destruct X.
Qed.
End HISTORY.

(** C85: a request whose steps are not interrupted is served as in the model of one
    request after the other (C84): the same events, the same end. *)
Theorem uninterrupted_request_as_one_step debug heaps i q w w1 evs : lstep debug heaps i (Serve q) (now w) = (w1, Served evs) ->
  exists got w2 w3, pstep debug heaps i (PBegin q) w = (w2, PBegun got) /\ nexts debug heaps i w2 evs w3 /\ todo w3 i = [] /\
    (forall j, j <> i -> todo w3 j = todo w j) /\ forall j, lib (now w3) j = lib w1 j.
Proof. apply begin_serve. Qed.

(** A history that meets the hypotheses: two directories, each exported at /data in
    one of two libraries; both sandboxes ask for /data/a at the same time and their
    steps take turns, while the program opens and closes a descriptor of its own. *)
Definition busy_kernel (n : Z) : kernel := fun _ o => if opens o then (n, 0) else (0, 0).
Definition busy_request : request :=
  Request (Some (CRequest 0 16 4900, Some 33)) [] true (busy_kernel 100) (fun _ => demo_mem) (fun _ => demo_mem) (fun _ => demo_mem) (fun _ => 0) (fun _ => []) (fun _ => 0).
Definition other_request : request :=
  Request (Some (CRequest 0 16 70436, None)) [] true (busy_kernel 101) (fun _ => second_mem) (fun _ => second_mem) (fun _ => second_mem) (fun _ => 0) (fun _ => []) (fun _ => 0).
Definition demo_par : list (nat * pop) :=
  [(0%nat, PHost (Open 3)); (0%nat, PHost (Open 4)); (0%nat, PHost (Add (tx "/data") false (Some 0%nat))); (1%nat, PHost (Add (tx "/data") false (Some 1%nat)));
   (1%nat, PSet NConnect PAllow); (0%nat, PBegin busy_request); (1%nat, PBegin other_request); (1%nat, PNext); (0%nat, PNext); (0%nat, PHost (Open 5));
   (0%nat, PNext); (1%nat, PNext); (0%nat, PHost (Close 5%nat)); (0%nat, PNext); (1%nat, PNext); (1%nat, PHost Drop); (0%nat, PNext)].
Local Notation demo_heaps := (fun i => library_heap (two i) 4096 64).
Fixpoint run_par (w : par) (os : list (nat * pop)) : par * phistory :=
  match os with
  | [] => (w, [])
  | (i, o) :: r => let x := pstep true demo_heaps i o w in let y := run_par (fst x) r in (fst y, (i, (o, snd x)) :: snd y)
  end.
Example demo_par_result :
  map (fun e => snd (snd e)) (snd (run_par new_par demo_par)) =
    [PDid (Opened 0); PDid (Opened 1); PDid (Answer true); PDid (Answer true); PNoted; PBegun (Some 2%nat); PBegun None;
     PSeen (Asked (KOpenat2 4 (Some (tx "a")) 0 0 8) (Some 1%nat) (Some 3%nat)); PSeen (Asked (KOpenat2 3 (Some (tx "a")) 0 0 8) (Some 0%nat) (Some 4%nat));
     PDid (Opened 5); PSeen (Asked (KClose 33) (Some 2%nat) None); PSeen (Replied (-38) (Some (Some 3%nat))); PDid Done;
     PSeen (Replied (-38) (Some (Some 4%nat))); PSeen (Asked (KClose 101) (Some 3%nat) None); PDid Done; PSeen (Asked (KClose 100) (Some 4%nat) None)] /\
  table (now (fst (run_par new_par demo_par))) = [(3, 0%nat)] /\ todo (fst (run_par new_par demo_par)) 0%nat = [].
Proof. split; [vm_compute; reflexivity|]. split; vm_compute; reflexivity. Qed.

Example demo_par_runs : (forall i, mapping_ok (two i) 4096 64) /\
  pruns true demo_heaps (snd (run_par new_par demo_par)) (fst (run_par new_par demo_par)).
Proof.
  split; [intros [|i]; unfold mapping_ok, two; repeat split; try lia; reflexivity|].
  assert (G : forall os es w, pruns true demo_heaps es w ->
    (forall pre i o post, os = pre ++ (i, o) :: post -> pallowed (es ++ snd (run_par w pre)) (fst (run_par w pre)) i o) ->
    pruns true demo_heaps (es ++ snd (run_par w os)) (fst (run_par w os))).
  { induction os as [|[i o] os IH]; intros es w R A; cbn [run_par fst snd]; [rewrite app_nil_r; exact R|].
    pose proof (A [] i o os eq_refl) as A0. cbn [run_par fst snd] in A0. rewrite app_nil_r in A0.
    pose proof (pruns_snoc _ _ _ _ _ _ _ _ R A0 (surjective_pairing (pstep true demo_heaps i o w))) as R1.
    specialize (IH _ _ R1). rewrite <- app_assoc in IH. apply IH. intros pre i' o' post E.
    pose proof (A ((i, o) :: pre) i' o' post) as A1. cbn [run_par fst snd] in A1. rewrite <- app_assoc. apply A1. rewrite E. reflexivity. }
  apply (G demo_par [] new_par); [constructor|]. cbn [app].
  intros pre i o post E. unfold demo_par in E.
  Ltac pop_event := match goal with E : _ = ?pre ++ _ |- _ => destruct pre as [|? pre]; cbn [app] in E;
    [injection E as <- <- _|injection E as <- E] end.
  pop_event. { split; [split; [lia|reflexivity]|exact Logic.I]. }
  pop_event. { split; [split; [lia|reflexivity]|exact Logic.I]. }
  pop_event. { split; [|reflexivity]. split; [discriminate|]. split; [reflexivity|]. intros u [= <-]. apply holdsb_ok. vm_compute. reflexivity. }
  pop_event. { split; [|reflexivity]. split; [discriminate|]. split; [reflexivity|]. intros u [= <-]. apply holdsb_ok. vm_compute. reflexivity. }
  pop_event. { reflexivity. }
  pop_event. { split; [reflexivity|]. split; [vm_compute; discriminate|]. split; [intros rq fd [= <- <-]; repeat split; solve [discriminate | reflexivity]|]. split; [repeat constructor; cbn; tauto|].
    intros n [<-|[]]. split; [lia|vm_compute; reflexivity]. }
  pop_event. { split; [reflexivity|]. split; [vm_compute; discriminate|]. split; [intros rq fd [= <- <-]; repeat split; solve [discriminate | reflexivity]|]. split; [constructor|]. intros n []. }
  pop_event. { vm_compute. intros _ _. split; [reflexivity|]. intros f [= <-]. discriminate. }
  pop_event. { vm_compute. intros _ _. split; [reflexivity|]. intros f [= <-]. discriminate. }
  pop_event. { split; [split; [lia|vm_compute; reflexivity]|exact Logic.I]. }
  pop_event. { vm_compute. discriminate. }
  pop_event. { vm_compute. exact Logic.I. }
  pop_event. { split; [|exact Logic.I]. apply holdsb_ok. vm_compute. reflexivity. }
  pop_event. { vm_compute. exact Logic.I. }
  pop_event. { vm_compute. discriminate. }
  pop_event. { split; [vm_compute; discriminate|vm_compute; reflexivity]. }
  pop_event. { vm_compute. discriminate. }
  destruct pre; discriminate.
Qed.
Print Assumptions parallel_descriptor_in_one_library.
Print Assumptions parallel_never_breaks.
Print Assumptions parallel_others_unchanged.
Print Assumptions parallel_request_changes_no_export.
Print Assumptions parallel_numbers_kept.
Print Assumptions parallel_received_is_new.
Print Assumptions parallel_step_stays_in_its_library.
Print Assumptions parallel_request_finished.
Print Assumptions uninterrupted_request_as_one_step.
