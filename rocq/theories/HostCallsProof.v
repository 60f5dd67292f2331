(** Proofs about the built-in host callbacks. *)
From Coq Require Import String Ascii List ZArith Lia Bool.
From Verif Require Import Base PathModel PathSpec PathProof FileTreeModel FileTreeSpec FileTreeProof
  FileTreeProps RegionModel RegionSpec RegionProof DispatchModel HostCallsModel HostCallsSpec.
Import ListNotations.
Open Scope Z_scope.

(** ** Paths *)

Lemma c_view_no_nul : forall buf s, c_view buf = Some s -> ~ In nul s.
Proof.
  induction buf as [|c r IH]; cbn; intros s H; [discriminate|].
  destruct (ascii_dec c nul) as [->|N]; [injection H as <-; auto|].
  destruct (c_view r) as [s'|]; [|discriminate]. injection H as <-.
  intros [E|E]; [congruence|]. exact (IH s' eq_refl E).
Qed.

Lemma get_path_total shm size hdr rd p : mapping_ok shm size hdr -> is_word p ->
  exists o, get_path (library_heap shm size hdr) rd true p = Ret o /\
    (forall s, o = Some s -> ~ In nul s) /\ string_or_null (shm + 2 * hdr) (shm + size) rd p o.
Proof.
  intros M Wp. unfold get_path.
  destruct (strdup_out_total shm size hdr rd p) as [r E]. rewrite E. cbn [obind].
  destruct (strdup_out_read _ _ _ _ _ _ _ M Wp E) as [A B].
  destruct (dup_buf r) as [buf|] eqn:D.
  - destruct (B buf eq_refl) as (s & C & R). rewrite C. eexists; split; [reflexivity|]. split; [|exact R].
    intros s' X; injection X as <-. eapply c_view_no_nul; eauto.
  - eexists; split; [reflexivity|]. split; [discriminate|]. exact (A eq_refl).
Qed.
Lemma get_path_read shm size hdr rd p o : mapping_ok shm size hdr -> is_word p ->
  get_path (library_heap shm size hdr) rd true p = Ret o -> string_or_null (shm + 2 * hdr) (shm + size) rd p o.
Proof. intros M Wp E. destruct (get_path_total shm size hdr rd p M Wp) as (o' & E' & _ & R). congruence. Qed.

(** The parsed components are the segments of the text, up to empty ones. *)
Lemma climbs_nonempty l : climbs_above_start (nonempty_comps l) <-> climbs_above_start l.
Proof.
  split; intros (pre & post & E & L).
  - destruct (prefix_nonempty _ _ _ E) as (pre' & post' & -> & <-). exists pre', post'. split; [reflexivity|].
    rewrite names_nonempty, ups_nonempty in L. exact L.
  - exists (nonempty_comps pre), (nonempty_comps post). rewrite E, nonempty_comps_app, names_nonempty, ups_nonempty. auto.
Qed.
Lemma drop_trailing_nonempty segs : nonempty_comps (drop_trailing_empty segs) = nonempty_comps segs.
Proof.
  unfold drop_trailing_empty. destruct (rev segs) as [|[|a c] r] eqn:E; try reflexivity.
  rewrite <- (rev_involutive segs), E. cbn [rev]. rewrite nonempty_comps_app. cbn. rewrite app_nil_r. reflexivity.
Qed.
Lemma parse_segments s p : path_of_cstr s = Ret p ->
  is_abs p = starts_with_slash s /\ exists segs, segments_of s segs /\ nonempty_comps segs = nonempty_comps (comps p).
Proof.
  intros P. destruct s as [|c r].
  - injection P as <-. split; [reflexivity|]. exists [[]]. split; [|reflexivity].
    split; [discriminate|]. split; [|reflexivity]. constructor; [|constructor]. intros [].
  - destruct (parse_spec (c :: r)) as (p' & segs & P' & A & (Ne & F & J) & C); [discriminate|].
    change (path_of_view (c :: r) = Ret p) in P. assert (p' = p) as -> by congruence. split; [exact A|].
    cbn [strip_leading_slash] in J. destruct (ascii_dec c slash) as [->|N].
    + exists ([] :: segs). split.
      * split; [discriminate|]. split; [constructor; [intros []|exact F]|]. rewrite joined_cons by exact Ne. cbn. rewrite J. reflexivity.
      * rewrite nonempty_comps_cons, C, drop_trailing_nonempty. reflexivity.
    + exists segs. split; [split; auto|]. rewrite C, drop_trailing_nonempty. reflexivity.
Qed.

Lemma path_of_cstr_total s : exists p, path_of_cstr s = Ret p.
Proof.
  destruct s as [|c r]; [eexists; reflexivity|].
  destruct (parse_spec (c :: r)) as (p & _ & H & _); [discriminate|]. exists p. exact H.
Qed.

Lemma In_joined : forall cs c x, In c cs -> In x c -> In x (joined cs).
Proof.
  induction cs as [|d r IH]; intros c x Hc Hx; [destruct Hc|].
  destruct r as [|e r'].
  - destruct Hc as [->|[]]. exact Hx.
  - rewrite joined_cons by discriminate. apply in_or_app. destruct Hc as [->|Hc]; [left; auto|].
    right. right. eapply IH; eauto.
Qed.

Lemma In_joined_inv : forall cs x, In x (joined cs) -> x = slash \/ exists c, In c cs /\ In x c.
Proof.
  induction cs as [|d r IH]; intros x H; [destruct H|].
  destruct r as [|e r'].
  - right. exists d. split; [now left|exact H].
  - rewrite joined_cons in H by discriminate. apply in_app_or in H as [H|[H|H]].
    + right. exists d. split; [now left|auto].
    + left. auto.
    + destruct (IH _ H) as [->|(c & H1 & H2)]; [auto|]. right. exists c. split; [now right|auto].
Qed.

Lemma In_removelast {A} : forall (l : list A) x, In x (removelast l) -> In x l.
Proof.
  induction l as [|a l IH]; intros x H; [destruct H|]. cbn in H. destruct l; [destruct H|].
  destruct H as [->|H]; [now left|right; auto].
Qed.

Lemma comps_chars s p c x : path_of_cstr s = Ret p -> In c (comps p) -> In x c -> In x s.
Proof.
  intros H Hc Hx. destruct s as [|a r].
  - cbn in H. injection H as <-. destruct Hc.
  - assert (V : path_of_view (a :: r) = Ret p) by exact H.
    pose proof (print_parse _ _ V) as P.
    assert (In x (str p)).
    { unfold str. destruct (is_abs p).
      - rewrite str_loop_true. destruct (comps p) eqn:E; [destruct Hc|]. right. rewrite <- E in *.
        eapply In_joined; eauto.
      - rewrite str_loop_false. eapply In_joined; eauto. }
    rewrite P in H0. destruct (ends_with_slash (a :: r)); [apply In_removelast|]; auto.
Qed.

(** What is exported is determined by the history. *)
Lemma history_determines h v v' : history h v -> history h v' -> forall q, v q = v' q.
Proof.
  intros H. revert v'. induction H as [|h v q l H IH N|h v q l H IH N]; intros v' H' p.
  - inversion H' as [|h0 v0 q0 l0 _ _ E|h0 v0 q0 l0 _ _ E]; [reflexivity|..]; destruct h0; discriminate.
  - inversion H' as [E|h0 v0 q0 l0 H0 N0 E|h0 v0 q0 l0 H0 N0 E]; [destruct h; discriminate|..];
      apply app_inj_tail in E as [-> E]; injection E as -> ->; [|discriminate].
    unfold exported. destruct (names_eq_dec p q); [reflexivity|]. rewrite (IH _ H0). reflexivity.
  - inversion H' as [E|h0 v0 q0 l0 H0 N0 E|h0 v0 q0 l0 H0 N0 E]; [destruct h; discriminate|..];
      apply app_inj_tail in E as [-> E]; [discriminate|]. auto.
Qed.
Lemma return_fd_answers r : answers_fd r (return_fd r).
Proof. unfold answers_fd, return_fd. change (- ENOSYS) with (-38). destruct (Z.leb_spec 0 (fst r)); [left|right]; auto. Qed.
Lemma return_int_answers r : answers_int r (return_int r).
Proof. unfold answers_int, return_int. destruct (Z.leb_spec 0 (fst r)); [left|right]; auto. Qed.

(** ** The common part of open, stat and access *)

Lemma path_syscall_cases calls oks t shm size hdr rd in_path :
  host_calls calls -> run_host calls = Ret (oks, t) -> mapping_ok shm size hdr -> is_word in_path ->
  let lo := shm + 2 * hdr in let hi := shm + size in
  (request_names_nothing lo hi rd in_path /\
   forall log handler, handle_path_syscall t (library_heap shm size hdr) rd true in_path log handler
     = Ret (Result (-22) None, log)) \/
  ((exists names, request_names lo hi rd in_path names /\ not_exported (combine calls oks) names) /\
   forall log handler, handle_path_syscall t (library_heap shm size hdr) rd true in_path log handler
     = Ret (Result (-2) None, log)) \/
  exists fd tail q,
    (forall log handler, handle_path_syscall t (library_heap shm size hdr) rd true in_path log handler
     = Ret (handler fd tail)) /\
    request_names lo hi rd in_path (q ++ comps tail) /\
    ((comps tail = [] /\ exported_file (combine calls oks) q fd) \/
     (comps tail <> [] /\ exported_dir (combine calls oks) q fd /\ beneath_path (str tail) (comps tail))).
Proof.
  intros HC RH M Wp lo hi. unfold handle_path_syscall.
  destruct (get_path_total shm size hdr rd in_path M Wp) as (o & G & NN & RD). rewrite G. cbn [obind].
  destruct o as [s|]; [|left; split; [left; exact RD|reflexivity]]. cbn [string_or_null] in RD.
  destruct (path_of_cstr_total s) as [p P]. rewrite P. cbn [obind].
  destruct (parse_segments _ _ P) as (_ & segs & SG & NE).
  pose proof (canonicalise_fails_iff p) as FI. rewrite <- climbs_nonempty, <- NE, climbs_nonempty in FI.
  destruct (canonicalise p) as [ok pq] eqn:C. cbn [fst] in FI. destruct ok; cbn [negb].
  2:{ left. split; [|reflexivity]. right. exists s, segs. split; [exact RD|]. split; [exact SG|]. apply FI. reflexivity. }
  assert (RN : request_names lo hi rd in_path (comps pq)).
  { exists s, segs. split; [exact RD|]. split; [exact SG|]. split; [intros X; apply FI in X; discriminate|].
    rewrite (canonicalise_normal_form _ _ C), <- (follow_nonempty _ _ _ segs), NE, follow_nonempty. reflexivity. }
  destruct (filetree_refines_export_history _ HC) as (oks' & t' & v & RH' & _ & Hv & Lv).
  assert (oks' = oks /\ t' = t) as [-> ->] by (split; congruence). clear RH'.
  destruct pq as [a cs]. cbn [comps] in RN.
  destruct (lookup_file t (mkPath a cs)) as [[fd tail]|] eqn:L.
  2:{ right; left. split; [|reflexivity]. exists cs. split; [exact RN|]. exists v. split; [exact Hv|]. split.
      - intros fd X. assert (Y : lookup_file t (mkPath a cs) = Some (fd, mkPath false [])) by (apply Lv; cbn; auto). congruence.
      - intros q tail fd E N X. assert (Y : lookup_file t (mkPath a cs) = Some (fd, mkPath false tail)) by (apply Lv; cbn; split; [auto|right; eauto]). congruence. }
  right; right. apply Lv in L as (Ab & D).
  assert (D' : exists q, cs = q ++ comps tail /\ (comps tail = [] /\ v q = AFile fd \/ comps tail <> [] /\ v q = ADir fd)).
  { destruct D as [[D1 D2]|(D1 & q & D2 & D3)]; [exists cs; rewrite D1, app_nil_r; auto|exists q; auto]. }
  clear D. destruct D' as (q & E & D).
  exists fd, tail, q. split; [reflexivity|]. split.
  - rewrite <- E. exact RN.
  - destruct D as [[D1 D]|[D1 D2]]; [left; split; [exact D1|exists v; auto]|right]. split; [auto|]. split; [exists v; auto|].
    destruct (canonicalise_result _ _ C) as (_ & Cl & _).
    pose proof (canonicalise_incl _ _ _ C) as I. cbn [comps] in *.
    pose proof (parse_no_slash _ _ P) as NS.
    assert (inT : incl (comps tail) (comps p)).
    { intros x Hx. apply I. rewrite E. apply in_or_app. now right. }
    unfold beneath_path, segments_of, str. rewrite Ab, str_loop_false.
    split; [auto|]. split; [split; [auto|split; [|reflexivity]]|split].
    + apply Forall_forall. intros x Hx. rewrite Forall_forall in NS. auto.
    + rewrite E in Cl. apply Forall_app in Cl. apply Cl.
    + intros Hn. apply In_joined_inv in Hn as [Hn|(c & Hc & Hx)]; [discriminate|].
      exact (NN s eq_refl (comps_chars _ _ _ _ P (inT _ Hc) Hx)).
Qed.
